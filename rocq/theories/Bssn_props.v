(** C88, the BSSN right hand sides of the code against the ADM evolution equations. *)
From Verif Require Import Rutil Coord_model Coord_spec Adm_model Adm_spec Adm_proofs Adm2_proofs Adm_props Conf_proofs Bssn_model Bssn_spec Bssn_proofs Bssn2_proofs.
From Coq Require Import FunctionalExtensionality.
Local Open Scope R_scope.
(** ** pointwise algebra *)
Section P.
Variable a : bs_in.
Let g := w_g a. Let gi := w_gi a. Let A := w_A a. Let K := bs_K_2 a. Let al := bs_alpha a. Let f := w_df a.
Hypothesis I : inverse g gi.
Hypothesis TF : trace gi A = 0.
Variable E : R.
Hypothesis NE : E <> 0.
Hypothesis PE : bs_psim4 a = / E.
Lemma g_s i j : g i j = g j i. Proof. destruct i, j; reflexivity. Qed.
Lemma A_s i j : A i j = A j i. Proof. destruct i, j; reflexivity. Qed.
Lemma gi_s i j : gi i j = gi j i. Proof. destruct i, j; reflexivity. Qed.
Let h i j := E * g i j.
Let hi i j := gi i j / E.
Let Kij i j := E * (A i j + K / 3 * g i j).
Lemma SSe F G : (forall i j, F i j = G i j) -> SS F = SS G. Proof. intros H. unfold SS, S3. now rewrite !H. Qed.
Lemma S3e F G : (forall i, F i = G i) -> S3 F = S3 G. Proof. intros H. unfold S3. now rewrite !H. Qed.
Lemma tr_h T : trace hi T = / E * trace gi T. Proof. unfold trace, hi, SS, S3. field. auto. Qed.
Lemma trK_p : trace hi Kij = K.
Proof.
  rewrite tr_h. transitivity (trace gi A + K / 3 * SS (fun i j => gi i j * g i j)); [unfold trace, Kij, SS, S3; field; auto|]. rewrite TF, (con3 g gi g_s I). field.
Qed.
Lemma KK_p i j : SS (fun k l => Kij i k * hi k l * Kij l j) = E * (w_AA a i j + 2 / 3 * K * A i j + K * K / 9 * g i j).
Proof.
  rewrite AA_w. fold gi A.
  transitivity (E * (SS (fun k l => gi k l * A i k * A j l) + K / 3 * SS (fun k l => gi k l * (g l j * A i k)) + K / 3 * SS (fun k l => gi k l * (g k i * A j l)) + K / 3 * (K / 3) * SS (fun k l => gi k l * (g l j * g i k)))).
  - transitivity (SS (fun k l => E * (gi k l * A i k * A l j + K / 3 * (gi k l * (g l j * A i k)) + K / 3 * (gi k l * (g i k * A l j)) + K / 3 * (K / 3) * (gi k l * (g l j * g i k))))).
    + apply SSe. intros. unfold Kij, hi. field. auto.
    + rewrite (SSe _ (fun k l => E * (gi k l * A i k * A j l + K / 3 * (gi k l * (g l j * A i k)) + K / 3 * (gi k l * (g k i * A j l)) + K / 3 * (K / 3) * (gi k l * (g l j * g i k))))) by (intros; now rewrite (g_s i), (A_s _ j)). unfold SS, S3. ring.
  - rewrite (con g gi I (fun k => A i k) j), (con2 g gi gi_s I (fun l => A j l) i), (con g gi I (fun k => g i k) j). rewrite (A_s j i). field.
Qed.
Lemma sq_p : square hi Kij = bs_AA a + K * K / 3.
Proof.
  rewrite AAs_w. fold gi. transitivity (trace hi (fun i j => SS (fun k l => Kij i k * hi k l * Kij l j))).
  - assert (KS : forall i j, Kij i j = Kij j i) by (intros; unfold Kij; now rewrite A_s, g_s). assert (HS : forall i j, hi i j = hi j i) by (intros; unfold hi; now rewrite gi_s).
    unfold square, trace, SS, S3. rewrite (KS D2 D1), (KS D3 D1), (KS D3 D2), (HS D2 D1), (HS D3 D1), (HS D3 D2). ring.
  - unfold trace at 1. rewrite (SSe _ (fun i j => hi i j * (E * (w_AA a i j + 2 / 3 * K * A i j + K * K / 9 * g i j)))) by (intros; now rewrite KK_p).
    transitivity (trace gi (w_AA a) + 2 / 3 * K * trace gi A + K * K / 9 * SS (fun i j => gi i j * g i j)); [unfold trace, hi, SS, S3; field; auto|]. rewrite TF, (con3 g gi g_s I). field.
Qed.
(** physical derivatives *)
Let dh k i j := E * (w_dg a k i j + 4 * f k * g i j).
Variable dK : d3 -> R.
Let dKij k i j := E * (w_dA a k i j + dK k / 3 * g i j + K / 3 * w_dg a k i j + 4 * f k * (A i j + K / 3 * g i j)).
Lemma evol_h i j : E * (4 * bs_rphi a * g i j + w_rg a i j) = adm_dt_h al (w_be a) (w_db a) h Kij dh i j.
Proof.
  rewrite rphi_s, rg_w, lieg_w. unfold adm_dt_h, lie, h, Kij, dh, divb. fold al K g A f. unfold S3. field.
Qed.
Let DDa i j := w_cdda a i j.
Let Ric i j := w_R a i j + w_rphi a i j.
Lemma evol_trK : bs_rK a = adm_dt_trK al (w_be a) hi Kij (fun k => s_dK a (n3 k)) DDa.
Proof.
  unfold adm_dt_trK, bs_rK. rewrite sq_p. assert (T := trcdda_w a). rewrite PE in T. rewrite tr_h. fold gi in T. change (trace gi DDa) with (trace gi (w_cdda a)). rewrite T. fold al K. unfold pow2, bs_lieK, bs_betadK, S3. cbn [n3]. unfold bs_dK1, bs_dK2, bs_dK3. cbv beta iota delta [w_be]. unfold bs_beta1, bs_beta2, bs_beta3. field. auto.
Qed.
Lemma ham_p : hamiltonian hi Kij Ric = bs_hamil a.
Proof.
  unfold hamiltonian, bs_hamil. rewrite trK_p, sq_p, tr_h. assert (T := trRicci_w a). rewrite PE in T. fold gi in T. unfold Ric. rewrite T. unfold bs_KK, pow2. fold K. field. auto.
Qed.
Lemma evol_K i j : (forall k, dK k = s_dK a (n3 k)) -> E * (4 * bs_rphi a * (A i j + K / 3 * g i j) + w_rA a i j + (bs_rK a * g i j + K * w_rg a i j) / 3)
   = adm_dt_K al (w_be a) (w_db a) hi Kij dKij DDa Ric i j + al / 3 * (s_par a PRtoRminusHfactor - 1) * hamiltonian hi Kij Ric * h i j.
Proof.
  intros HK. unfold adm_dt_K. rewrite trK_p, KK_p, ham_p. rewrite rphi_s, rA_w, rg_w, lieg_w, lieA_w. unfold bs_rK, bs_R. unfold bs_RtoRminusHfactor. fold al K g A f.
  assert (T1 := trcdda_w a). assert (T2 := trRicci_w a). fold gi in T1, T2. rewrite PE in *. unfold bs_lieK, bs_betadK. unfold bs_hamil. fold (bs_KK a). rewrite T2. clear T1 T2. unfold bs_KK. fold K.
  unfold lie, dKij, Kij, h, divb, DDa, Ric. set (tr := trace gi _). clearbody tr. unfold pow2, S3. rewrite !HK. cbn [n3]. change (s_dK a 0) with (bs_dK1 a). change (s_dK a 1) with (bs_dK2 a). change (s_dK a 2) with (bs_dK3 a). change (w_be a D1) with (bs_beta1 a). change (w_be a D2) with (bs_beta2 a). change (w_be a D3) with (bs_beta3 a). field. auto.
Qed.
End P.
(** ** the fields near a point *)
Lemma dl_val f x l m : l = m -> derivable_pt_lim f x l -> derivable_pt_lim f x m. Proof. now intros ->. Qed.
Lemma dl_line c d x : derivable_pt_lim (fun t => c + t * d) x d.
Proof. eapply dl_val; [|apply (derivable_pt_lim_plus (fun _ => c) (fun t => t * d)); [apply derivable_pt_lim_const|apply (derivable_pt_lim_mult id (fun _ => d)); [apply derivable_pt_lim_id|apply derivable_pt_lim_const]]]. unfold id. ring. Qed.
Lemma dl_line3 c d x : derivable_pt_lim (fun t => (c + t * d) / 3) x (d / 3).
Proof. eapply dl_val; [|apply (derivable_pt_lim_mult (fun t => c + t * d) (fun _ => / 3)); [apply dl_line|apply derivable_pt_lim_const]]. cbv beta. unfold Rdiv. ring. Qed.
Lemma dl_exp (f : R -> R) x l : derivable_pt_lim f x l -> derivable_pt_lim (fun t => exp (f t)) x (exp (f x) * l).
Proof. intros H. apply (derivable_pt_lim_comp f exp x l (exp (f x)) H). apply derivable_pt_lim_exp. Qed.
Lemma pd_exp (f : fn3) k X Y Z l : pd f k X Y Z l -> pd (fun x y z => exp (f x y z)) k X Y Z (exp (f X Y Z) * l).
Proof. destruct k; cbn [pd]; intros H; [apply (dl_exp (fun t => f t Y Z))|apply (dl_exp (fun t => f X t Z))|apply (dl_exp (fun t => f X Y t))]; exact H. Qed.
Section M.
Variables (a : bs_in) (X Y Z e : R) (F : bfields) (hi : d3 -> d3 -> fn3) (dh : d3 -> d3 -> d3 -> fn3).
Hypothesis He : 0 < e.
Hypothesis HN : bssn_near e X Y Z F.
Hypothesis HS : bssn_sampled a X Y Z F.
Hypothesis HI : forall x y z, near e X Y Z x y z -> inverse (fun i j => Bh F i j x y z) (fun i j => hi i j x y z) /\ forall k i j, pd (Bh F i j) k x y z (dh k i j x y z).
Let E : R := Bpsi F X Y Z ^ 4 * exp (4 * Bphi F X Y Z).
Let Ef : fn3 := fun x y z => Bpsi F x y z ^ 4 * exp (4 * Bphi F x y z).
Let Ff (k : d3) : fn3 := fun x y z => Dpsi F k x y z * / Bpsi F x y z + Dphi F k x y z.
Lemma m0 : near e X Y Z X Y Z. Proof. now apply near0. Qed.
Lemma psi_p x y z : near e X Y Z x y z -> 0 < Bpsi F x y z. Proof. intros N. apply (HN x y z N). Qed.
Lemma E_p : E <> 0.
Proof. unfold E. apply Rgt_not_eq, Rmult_lt_0_compat; [apply pow_lt, psi_p, m0|apply exp_pos]. Qed.
Lemma g_w i j : w_g a i j = Bg F i j X Y Z.
Proof. transitivity (s_u a (s6 i j)); [destruct i, j; reflexivity|apply HS]. Qed.
Lemma A_w i j : w_A a i j = BA F i j X Y Z.
Proof. transitivity (s_u a (7 + s6 i j)); [destruct i, j; reflexivity|apply HS]. Qed.
Lemma dg_w k i j : w_dg a k i j = Dg F k i j X Y Z.
Proof. transitivity (s_dg a (3 * s6 i j + n3 k)); [destruct k, i, j; reflexivity|apply HS]. Qed.
Lemma ddg_w k l i j : pd (Dg F k i j) l X Y Z (w_ddg a k l i j).
Proof. replace (w_ddg a k l i j) with (s_ddg a (6 * s6 i j + s6 k l)); [apply HS|destruct k, l, i, j; reflexivity]. Qed.
Lemma dA_w k i j : pd (BA F i j) k X Y Z (w_dA a k i j).
Proof. replace (w_dA a k i j) with (s_dA a (3 * s6 i j + n3 k)); [apply HS|destruct k, i, j; reflexivity]. Qed.
Lemma be_w k : w_be a k = Bbe F k X Y Z.
Proof. transitivity (s_u a (18 + n3 k)); [destruct k; reflexivity|apply HS]. Qed.
Lemma db_w k i : pd (Bbe F i) k X Y Z (w_db a k i).
Proof. replace (w_db a k i) with (s_dbeta a (3 * n3 i + n3 k)); [apply HS|destruct k, i; reflexivity]. Qed.
Lemma dG_w k i : pd (BG F i) k X Y Z (w_dG a k i).
Proof. replace (w_dG a k i) with (s_dG a (3 * n3 i + n3 k)); [apply HS|destruct k, i; reflexivity]. Qed.
Lemma da_w k : w_da a k = Dal F k X Y Z.
Proof. transitivity (s_dalp a (n3 k)); [destruct k; reflexivity|apply HS]. Qed.
Lemma dda_w k l : pd (Dal F k) l X Y Z (w_dda a k l).
Proof. replace (w_dda a k l) with (s_ddalp a (s6 k l)); [apply HS|destruct k, l; reflexivity]. Qed.
Lemma dpop_w k : s_psi a (1 + n3 k) = Dpsi F k X Y Z * / Bpsi F X Y Z.
Proof. assert (Q := proj1 (proj2 HS) k). rewrite <- Q. field. apply Rgt_not_eq, psi_p, m0. Qed.
Lemma df_w k : w_df a k = Ff k X Y Z.
Proof.
  unfold Ff. rewrite <- dpop_w. assert (Q : s_dphi a (n3 k) = Dphi F k X Y Z) by apply HS. rewrite <- Q. destruct k; u_w_df; cbn [n3 Nat.add]; unfold bs_df1, bs_df2, bs_df3, bs_dphi1, bs_dphi2, bs_dphi3, bs_dpop1, bs_dpop2, bs_dpop3; ring.
Qed.
Lemma ddf_w k l : pd (Ff k) l X Y Z (w_ddf a k l).
Proof.
  assert (NP : Bpsi F X Y Z <> 0) by apply Rgt_not_eq, psi_p, m0. unfold Ff.
  eapply pd_val; [|apply pd_plus; [apply pd_mult; [apply HS|apply pd_inv; [exact NP|apply (HN X Y Z m0)]]|apply HS]].
  assert (D1' := dpop_w k). assert (D2' := dpop_w l).
  transitivity (s_psi a (4 + s6 k l) - (Dpsi F k X Y Z * / Bpsi F X Y Z) * (Dpsi F l X Y Z * / Bpsi F X Y Z) + s_ddphi a (s6 k l)); [field; exact NP|].
  rewrite <- D1', <- D2'. destruct k, l; cbv beta iota delta [w_ddf]; cbn [n3 s6 Nat.add]; unfold bs_ddf11_2, bs_ddf12_2, bs_ddf13_2, bs_ddf22_2, bs_ddf23_2, bs_ddf33_2, bs_ddf11, bs_ddf12, bs_ddf13, bs_ddf22, bs_ddf23, bs_ddf33, pow2, bs_dpop1, bs_dpop2, bs_dpop3, bs_ddpop11, bs_ddpop12, bs_ddpop13, bs_ddpop22, bs_ddpop23, bs_ddpop33, bs_ddphi11, bs_ddphi12, bs_ddphi13, bs_ddphi22, bs_ddphi23, bs_ddphi33; ring.
Qed.
Lemma psim4_w : bs_psim4 a = / E.
Proof.
  unfold bs_psim4, bs_f_2, bs_f, bs_logpsi_2, bs_phi, bs_psi. assert (Q1 : s_u a 6 = Bphi F X Y Z) by apply HS. assert (Q2 : s_psi a 0 = Bpsi F X Y Z) by apply HS. rewrite Q1, Q2. unfold E. assert (P := psi_p X Y Z m0).
  replace (Bpsi F X Y Z ^ 4) with (exp (4 * ln (Bpsi F X Y Z))). 2:{ rewrite <- (exp_ln (Bpsi F X Y Z)) at 2 by auto. cbn [pow]. rewrite Rmult_1_r, <- !exp_plus. f_equal. ring. }
  rewrite <- exp_plus, <- exp_Ropp. f_equal. ring.
Qed.
Lemma Ef_pd x y z k : near e X Y Z x y z -> pd Ef k x y z (Ef x y z * (4 * Ff k x y z)).
Proof.
  intros N. assert (NP : Bpsi F x y z <> 0) by apply Rgt_not_eq, psi_p, N. destruct (HN x y z N) as (_ & P & Q & _). unfold Ef.
  eapply pd_val; [|apply (pd_mult (fun x y z => Bpsi F x y z ^ 4) (fun x y z => exp (4 * Bphi F x y z))); [apply pd_pow4, P|apply (pd_exp (fun x y z => 4 * Bphi F x y z)), pd_scal, Q]]. unfold Ff. field. exact NP.
Qed.
Lemma dh_n x y z k i j : near e X Y Z x y z -> dh k i j x y z = Ef x y z * (Dg F k i j x y z + 4 * Ff k x y z * Bg F i j x y z).
Proof.
  intros N. eapply pd_unique; [now apply HI|]. unfold Bh, phys_metric. eapply pd_val; [|apply (pd_mult Ef (Bg F i j)); [now apply Ef_pd|apply (HN x y z N)]]. ring.
Qed.
Lemma dh_w k i j : dh k i j X Y Z = cdh (w_g a) (w_dg a) E (w_df a) k i j.
Proof. rewrite dh_n by apply m0. unfold cdh. now rewrite dg_w, df_w, g_w. Qed.
Lemma ddh_w k l i j : pd (dh k i j) l X Y Z (cddh (w_g a) (w_dg a) (w_ddg a) E (w_df a) (w_ddf a) k l i j).
Proof.
  apply (pd_ext (fun x y z => Ef x y z * (Dg F k i j x y z + 4 * Ff k x y z * Bg F i j x y z)) _ _ _ _ _ _ e He); [intros; symmetry; now apply dh_n|].
  eapply pd_val; [|apply (pd_mult Ef); [apply Ef_pd, m0|apply (pd_plus (Dg F k i j)); [apply ddg_w|apply (pd_mult (fun x y z => 4 * Ff k x y z) (Bg F i j)); [apply pd_scal, ddf_w|apply (HN X Y Z m0)]]]].
  unfold cddh. rewrite !dg_w, !df_w, !g_w. change (Ef X Y Z) with E. ring.
Qed.
Lemma inv_w : inverse (w_g a) (w_gi a).
Proof.
  assert (Q : inverse (fun i j => Bg F i j X Y Z) (fun i j => Bgi F i j X Y Z)) by apply (HN X Y Z m0). assert (D := inv_det _ _ Q). cbv beta in D.
  assert (ND : det3 (fun i j => Bg F i j X Y Z) <> 0) by (intros D0; rewrite D0 in D; lra).
  assert (ND' : 2 * bs_g12 a * bs_g13 a * bs_g23 a + bs_g11 a * bs_g22 a * bs_g33 a - bs_g33 a * (bs_g12 a * bs_g12 a) - bs_g22 a * (bs_g13 a * bs_g13 a) - bs_g11 a * (bs_g23 a * bs_g23 a) <> 0). { intros D0. apply ND. rewrite <- D0. unfold det3. rewrite <- !g_w. cbv beta iota delta [w_g]. ring. }
  intros m n. unfold S3. destruct m, n; cbv beta iota delta [w_g delta]; u_w_gi; unfold bs_detginv, pow2; field; auto.
Qed.
Lemma gi_w i j : w_gi a i j = Bgi F i j X Y Z.
Proof.
  apply (inv_unique (w_g a) (w_gi a) (fun i j => Bgi F i j X Y Z) i j); [apply inv_w|].
  assert (Q : inverse (fun i j => Bg F i j X Y Z) (fun i j => Bgi F i j X Y Z)) by apply (HN X Y Z m0). intros m n. rewrite <- (Q m n). unfold S3. now rewrite !g_w.
Qed.
Lemma inv_h : inverse (fun i j => Bh F i j X Y Z) (chi (w_gi a) E).
Proof.
  intros i j. rewrite <- (inv_w i j). unfold chi, Bh, phys_metric. fold E. unfold S3. rewrite <- !g_w. field. apply E_p.
Qed.
Lemma hi_w i j : hi i j X Y Z = chi (w_gi a) E i j.
Proof. apply (inv_unique _ _ _ i j (proj1 (HI X Y Z m0))). apply inv_h. Qed.
Lemma Kd_w k i j : pd (BKij F i j) k X Y Z (E * (w_dA a k i j + s_dK a (n3 k) / 3 * w_g a i j + bs_K a / 3 * w_dg a k i j + 4 * w_df a k * (w_A a i j + bs_K a / 3 * w_g a i j))).
Proof.
  unfold BKij, phys_curv. eapply pd_val; [|apply (pd_mult Ef (fun x y z => BA F i j x y z + BK F x y z / 3 * Bg F i j x y z)); [apply Ef_pd, m0|apply pd_plus; [apply dA_w|apply (pd_mult (fun x y z => BK F x y z / 3)); [|apply (HN X Y Z m0)]]]].
  2:{ apply (pd_val _ _ _ _ _ (/ 3 * s_dK a (n3 k))); [reflexivity|]. apply (pd_ext (fun x y z => / 3 * BK F x y z) _ _ _ _ _ _ e He); [intros; unfold Rdiv; ring|]. apply pd_scal. apply HS. }
  change (Ef X Y Z) with E. rewrite !dg_w, !df_w, !g_w, !A_w. unfold bs_K. assert (Q : s_u a 13 = BK F X Y Z) by apply HS. rewrite Q. field.
Qed.
Lemma g_sym_n x y z : near e X Y Z x y z -> forall i j, Bg F i j x y z = Bg F j i x y z. Proof. intros N. apply (HN x y z N). Qed.
Lemma con_w k : BG F k X Y Z = contracted (w_gi a) (w_dg a) k.
Proof.
  assert (Q : BG F k X Y Z = SS (fun i j => Bgi F i j X Y Z * christoffel (fun i j => Bgi F i j X Y Z) (fun k i j => Dg F k i j X Y Z) k i j)) by apply (HN X Y Z m0). rewrite Q.
  unfold contracted, christoffel, SS, S3. rewrite !gi_w, !dg_w. reflexivity.
Qed.
Lemma chr_w k i j : w_ga a k i j = christoffel (w_gi a) (w_dg a) k i j.
Proof.
  rewrite ga_w. rewrite ga_low; [|intros u v w; destruct u, v, w; reflexivity]. unfold S3. now rewrite !gd_w.
Qed.
Lemma G_w k : w_G a k = contracted (w_gi a) (w_dg a) k.
Proof.
  assert (Q1 : w_Gg a k = contracted (w_gi a) (w_dg a) k). { rewrite Gg_w. unfold contracted, SS, S3. now rewrite !chr_w. }
  assert (Q2 : s_u a (14 + n3 k) = contracted (w_gi a) (w_dg a) k). { rewrite <- con_w. apply HS. }
  destruct k; cbv beta iota delta [w_G bs_undiffdG1_3 bs_undiffdG2_3 bs_undiffdG3_3]; destruct (s_flag a FGReplacedBydg); [exact Q1|exact Q2|exact Q1|exact Q2|exact Q1|exact Q2].
Qed.
Lemma dcon_w l k : w_dG a l k = dcontracted (w_gi a) (w_dg a) (w_ddg a) l k.
Proof.
  eapply pd_unique; [apply dG_w|].
  assert (Q := rg_con (Bg F) (Bgi F) (Dg F) (w_ddg a) e X Y Z He). 
  apply (pd_ext (fun x y z => SS (fun i j => Bgi F i j x y z * christoffel (fun i j => Bgi F i j x y z) (fun k i j => Dg F k i j x y z) k i j)) _ _ _ _ _ _ e He); [intros x y z N; symmetry; apply (HN x y z N)|].
  eapply pd_val; [|apply Q].
  - unfold dcontracted, dgam, dgamma, idg, christoffel, SS, S3. rewrite !gi_w, !dg_w. reflexivity.
  - intros x y z N. apply (HN x y z N).
  - intros x y z N. apply (HN x y z N).
  - intros x y z N. apply (HN x y z N).
  - intros. apply ddg_w.
  - intros u v m n. destruct u, v; reflexivity.
Qed.
Lemma R_conf i j : w_R a i j = ric_form (w_gi a) (w_dg a) (w_ddg a) i j.
Proof.
  assert (S1 : forall i j, w_gi a i j = w_gi a j i) by (intros u v; destruct u, v; reflexivity).
  assert (S2 : forall k i j, w_dg a k i j = w_dg a k j i) by (intros k u v; destruct u, v; reflexivity).
  assert (S4 : forall k l m n, w_ddg a k l m n = w_ddg a k l n m) by (intros q r m n; destruct m, n; reflexivity).
  assert (S5 : forall k l m n, w_ddg a k l m n = w_ddg a l k m n) by (intros q r m n; destruct q, r; reflexivity).
  assert (Q : forall i j, (n3 i <= n3 j)%nat -> w_R a i j = ric_form (w_gi a) (w_dg a) (w_ddg a) i j).
  { intros p q L. rewrite (R_w a p q L). rewrite <- (bssn_ricci (w_g a) (w_gi a) (w_dg a) (w_ddg a) S1 inv_w S2 S5 p q).
    unfold bric. unfold SS, S3. rewrite <- !chr_w, <- !dcon_w, <- !G_w, <- !gd_w. reflexivity. }
  destruct (Nat.le_ge_cases (n3 i) (n3 j)) as [L|L]; [now apply Q|]. rewrite ric_form_sym; auto. rewrite <- Q by auto. destruct i, j; reflexivity.
Qed.
Lemma fs_w i j : w_ddf a i j = w_ddf a j i. Proof. destruct i, j; reflexivity. Qed.
Lemma Ric_w i j : ric_form (chi (w_gi a) E) (cdh (w_g a) (w_dg a) E (w_df a)) (cddh (w_g a) (w_dg a) (w_ddg a) E (w_df a) (w_ddf a)) i j = w_R a i j + w_rphi a i j.
Proof.
  assert (S0 : forall i j, w_g a i j = w_g a j i) by (intros u v; destruct u, v; reflexivity).
  assert (S1 : forall i j, w_gi a i j = w_gi a j i) by (intros u v; destruct u, v; reflexivity).
  assert (S2 : forall k i j, w_dg a k i j = w_dg a k j i) by (intros k u v; destruct u, v; reflexivity).
  rewrite (conf_ricci (w_g a) (w_gi a) (w_dg a) (w_ddg a) S0 S1 inv_w S2 E (w_df a) (w_ddf a) E_p fs_w). rewrite R_conf. f_equal.
  assert (CF : forall i j, cdd (w_gi a) (w_dg a) (w_df a) (w_ddf a) i j = w_cddf a i j). { intros u v. rewrite cddf_w. unfold cdd, hessian, S3. now rewrite !chr_w. }
  rewrite rphi_w, trcddf_w. unfold rphi. rewrite CF. assert (T : trace (w_gi a) (cdd (w_gi a) (w_dg a) (w_df a) (w_ddf a)) = trace (w_gi a) (w_cddf a)) by (unfold trace, SS, S3; now rewrite !CF). rewrite T. unfold cu. reflexivity.
Qed.
Lemma Hess_w i j : hessian (christoffel (chi (w_gi a) E) (cdh (w_g a) (w_dg a) E (w_df a))) (w_da a) (w_dda a) i j = w_cdda a i j.
Proof.
  assert (S0 : forall i j, w_g a i j = w_g a j i) by (intros u v; destruct u, v; reflexivity).
  unfold hessian, S3. rewrite !(conf_gamma (w_g a) (w_gi a) (w_dg a) S0 inv_w E (w_df a) E_p). rewrite cdda_w. unfold hessian, cu, SS, S3. rewrite <- !chr_w. destruct i, j; cbn [delta]; ring.
Qed.
End M.
(** ** the theorem: if the BSSN variables change with the rates that the code returns (dt = 0), then the physical metric and extrinsic curvature change as the ADM equations say;
    d/dt K_ij has in addition a multiple of the Hamiltonian constraint, which vanishes for RtoRminusHfactor = 1 *)
Theorem C88_evolution a X Y Z e F hi dh : 0 < e -> bssn_near e X Y Z F -> bssn_sampled a X Y Z F ->
  (forall x y z, near e X Y Z x y z -> inverse (fun i j => Bh F i j x y z) (fun i j => hi i j x y z) /\ forall k i j, pd (Bh F i j) k x y z (dh k i j x y z)) ->
  trace (fun i j => Bgi F i j X Y Z) (fun i j => BA F i j X Y Z) = 0 ->
  s_dt a = 0 -> s_flag a FforceKzerofactor = true -> s_flag a FGentlePhiRHS = false ->
  exists dG dK db dda dtr, (forall l i j k, pd (Gam hi dh i j k) l X Y Z (dG l i j k)) /\ (forall k i j, pd (BKij F i j) k X Y Z (dK k i j)) /\ (forall k i, pd (Bbe F i) k X Y Z (db k i)) /\ (forall k l, pd (Dal F k) l X Y Z (dda k l)) /\ (forall k, pd (BK F) k X Y Z (dtr k)) /\
    let h := fun i j => Bh F i j X Y Z in let h' := fun i j => hi i j X Y Z in let G := fun i j k => Gam hi dh i j k X Y Z in let K := fun i j => BKij F i j X Y Z in
    let al := Bal F X Y Z in let b := fun k => Bbe F k X Y Z in let DDa := hessian G (fun k => Dal F k X Y Z) dda in let Ric := ricci G dG in
    let psi := Bpsi F X Y Z in let phi := fun t => Bphi F X Y Z + t * bs_new a 6 in let g := fun i j t => Bg F i j X Y Z + t * bs_new a (s6 i j) in let A := fun i j t => BA F i j X Y Z + t * bs_new a (7 + s6 i j) in let k := fun t => BK F X Y Z + t * bs_new a 13 in
    (forall i j, derivable_pt_lim (fun t => phys_metric psi (phi t) (g i j t)) 0 (adm_dt_h al b db h K (fun k i j => dh k i j X Y Z) i j)) /\
    trace h' K = BK F X Y Z /\ bs_new a 13 = adm_dt_trK al b h' K dtr DDa /\
    (forall i j, derivable_pt_lim (fun t => phys_curv psi (phi t) (g i j t) (A i j t) (k t)) 0 (adm_dt_K al b db h' K dK DDa Ric i j + al / 3 * (s_par a PRtoRminusHfactor - 1) * hamiltonian h' K Ric * h i j)).
Proof.
  intros He HN HS HI TF DT FK FG. set (E := Bpsi F X Y Z ^ 4 * exp (4 * Bphi F X Y Z)).
  assert (NE : E <> 0) by (eapply E_p; eauto). assert (PE : bs_psim4 a = / E) by (eapply psim4_w; eauto). assert (IV : inverse (w_g a) (w_gi a)) by (eapply inv_w; eauto).
  assert (AL : bs_alpha a = Bal F X Y Z) by apply HS. assert (BE : forall k, w_be a k = Bbe F k X Y Z) by (intros; eapply be_w; eauto).
  assert (K2 : bs_K_2 a = BK F X Y Z). { unfold bs_K_2, bs_forceKzerofactor. rewrite FK, Rmult_1_l. apply HS. }
  assert (KK : bs_K a = BK F X Y Z) by apply HS.
  assert (GW : forall i j, w_g a i j = Bg F i j X Y Z) by (intros; eapply g_w; eauto). assert (AW : forall i j, w_A a i j = BA F i j X Y Z) by (intros; eapply A_w; eauto).
  assert (TF' : trace (w_gi a) (w_A a) = 0). { rewrite <- TF. unfold trace, SS, S3. rewrite !AW. rewrite !(gi_w a X Y Z e F He HN HS). reflexivity. }
  assert (HW : forall i j, hi i j X Y Z = chi (w_gi a) E i j) by (intros; eapply hi_w; eauto).
  assert (DW : forall k i j, dh k i j X Y Z = cdh (w_g a) (w_dg a) E (w_df a) k i j) by (intros; eapply dh_w; eauto).
  assert (ddhW : forall k l i j, pd (dh k i j) l X Y Z (cddh (w_g a) (w_dg a) (w_ddg a) E (w_df a) (w_ddf a) k l i j)) by (intros; eapply ddh_w; eauto).
  set (ddh := cddh (w_g a) (w_dg a) (w_ddg a) E (w_df a) (w_ddf a)) in *.
  assert (D2 : forall k l i j, ddh k l i j = ddh l k i j). { intros k l i j. unfold ddh, cddh. rewrite (fs_w a k l). assert (Q : w_ddg a k l i j = w_ddg a l k i j) by (destruct k, l; reflexivity). rewrite Q. ring. }
  assert (HS' : forall x y z, near e X Y Z x y z -> forall i j, Bh F i j x y z = Bh F j i x y z). { intros x y z N i j. unfold Bh. f_equal. now apply (HN x y z N). }
  assert (ADD : bs_addlinear a = false). { unfold bs_addlinear. destruct (Req_EM_T (s_dt a) 0); auto. contradiction. }
  set (dK := fun k i j => E * (w_dA a k i j + s_dK a (n3 k) / 3 * w_g a i j + bs_K a / 3 * w_dg a k i j + 4 * w_df a k * (w_A a i j + bs_K a / 3 * w_g a i j))).
  exists (dgam (fun i j => hi i j X Y Z) (fun k i j => dh k i j X Y Z) ddh), dK, (w_db a), (w_dda a), (fun k => s_dK a (n3 k)).
  split. { intros l i j k. apply (rg_dGam (Bh F) hi dh ddh e X Y Z He); auto; intros x y z N; now apply HI. }
  split. { intros k i j. unfold dK. eapply Kd_w; eauto. }
  split; [intros; eapply db_w; eauto|]. split; [intros; eapply dda_w; eauto|]. split; [intros; apply HS|].
  cbv zeta.
  assert (H1 : forall i j, Bh F i j X Y Z = E * w_g a i j) by (intros; unfold Bh, phys_metric; now rewrite GW).
  assert (H3 : forall i j, BKij F i j X Y Z = E * (w_A a i j + bs_K_2 a / 3 * w_g a i j)) by (intros; unfold BKij, phys_curv; now rewrite GW, AW, K2).
  assert (R1 : forall i j, ricci (fun i j k => Gam hi dh i j k X Y Z) (dgam (fun i j => hi i j X Y Z) (fun k i j => dh k i j X Y Z) ddh) i j = w_R a i j + w_rphi a i j).
  { intros i j. rewrite (rg_ricci (Bh F) hi dh ddh e X Y Z He); auto; try (intros x y z N; now apply HI). rewrite <- (Ric_w a X Y Z e F He HN HS i j). fold E. fold ddh. unfold ric_form, christoffel, SS, S3. rewrite !HW, !DW. reflexivity. }
  assert (H4 : forall i j, hessian (fun i j k => Gam hi dh i j k X Y Z) (fun k => Dal F k X Y Z) (w_dda a) i j = w_cdda a i j).
  { intros i j. rewrite <- (Hess_w a X Y Z e F He HN HS i j). fold E. unfold hessian, Gam, christoffel, S3. rewrite !HW, !DW. rewrite !(da_w a X Y Z F HS). reflexivity. }
  assert (NG : forall i j, bs_new a (s6 i j) = w_rg a i j). { intros i j. destruct i, j; cbn [s6 bs_new]; cbv beta iota delta [w_rg bs_ng11_5 bs_ng12_5 bs_ng13_5 bs_ng22_5 bs_ng23_5 bs_ng33_7]; rewrite ADD; reflexivity. }
  assert (NA : forall i j, bs_new a (7 + s6 i j) = w_rA a i j). { intros i j. destruct i, j; cbn [s6 bs_new Nat.add]; cbv beta iota delta [w_rA bs_nA11_5 bs_nA12_5 bs_nA13_5 bs_nA22_5 bs_nA23_5 bs_nA33_7]; rewrite ADD; reflexivity. }
  assert (NP : bs_new a 6 = bs_rphi a). { cbn [bs_new]. unfold bs_nphi_3. rewrite ADD. unfold bs_nphi_2, bs_rphi_3. now rewrite FG. }
  assert (NK : bs_new a 13 = bs_rK a). { cbn [bs_new]. unfold bs_nK_3. rewrite ADD. unfold bs_nK_2, bs_forceKzerofactor. rewrite FK. ring. }
  split; [|split; [|split]].
  - intros i j. unfold phys_metric. rewrite NP, NG.
    replace (adm_dt_h _ _ _ _ _ _ i j) with (E * (4 * bs_rphi a * w_g a i j + w_rg a i j)).
    2:{ rewrite (evol_h a E). unfold adm_dt_h, lie, S3. rewrite !H1, !H3, !DW, !AL, !BE. unfold cdh. reflexivity. }
    eapply dl_val; [|apply (derivable_pt_lim_mult (fun t => Bpsi F X Y Z ^ 4 * exp (4 * (Bphi F X Y Z + t * bs_rphi a))) (fun t => Bg F i j X Y Z + t * w_rg a i j)); [apply derivable_pt_lim_scal, (dl_exp (fun t => 4 * (Bphi F X Y Z + t * bs_rphi a))), derivable_pt_lim_scal, dl_line|apply dl_line]].
    cbv beta. rewrite !Rmult_0_l, !Rplus_0_r, GW. unfold E. ring.
  - rewrite <- K2, <- (trK_p a IV TF' E NE). unfold trace, SS, S3. rewrite !HW, !H3. reflexivity.
  - rewrite NK. rewrite (evol_trK a IV TF' E NE PE). unfold adm_dt_trK, trace, square, SS, S3. rewrite !HW, !H3, !H4, !AL, !BE. reflexivity.
  - intros i j. unfold phys_curv. rewrite NP, NG, NA, NK.
    replace (adm_dt_K _ _ _ _ _ _ _ _ i j + _) with (E * (4 * bs_rphi a * (w_A a i j + bs_K_2 a / 3 * w_g a i j) + w_rA a i j + (bs_rK a * w_g a i j + bs_K_2 a * w_rg a i j) / 3)).
    2:{ rewrite (evol_K a IV TF' E NE PE (fun k => s_dK a (n3 k)) i j) by reflexivity. unfold adm_dt_K, hamiltonian, lie, trace, square, SS, S3. rewrite !HW, !H3, !H4, !R1, !H1, !AL, !BE. unfold dK. rewrite !KK, <- !K2. reflexivity. }
    eapply dl_val; [|apply (derivable_pt_lim_mult (fun t => Bpsi F X Y Z ^ 4 * exp (4 * (Bphi F X Y Z + t * bs_rphi a))) (fun t => BA F i j X Y Z + t * w_rA a i j + (BK F X Y Z + t * bs_rK a) / 3 * (Bg F i j X Y Z + t * w_rg a i j))); [apply derivable_pt_lim_scal, (dl_exp (fun t => 4 * (Bphi F X Y Z + t * bs_rphi a))), derivable_pt_lim_scal, dl_line|]].
    2:{ apply (derivable_pt_lim_plus (fun t => BA F i j X Y Z + t * w_rA a i j)); [apply dl_line|]. apply (derivable_pt_lim_mult (fun t => (BK F X Y Z + t * bs_rK a) / 3) (fun t => Bg F i j X Y Z + t * w_rg a i j)); [apply dl_line3|apply dl_line]. }
    cbv beta. rewrite !Rmult_0_l, !Rplus_0_r, GW, AW, K2. unfold E. field.
Qed.
Print Assumptions C88_evolution.
(** a case: e^(4x) times the flat metric, with shear, expansion, a lapse 1+x and a shift (y,0,0), at (0,2,0) *)
Definition F88 : bfields := MkBF (fun _ _ _ => 1) (fun x _ _ => x) (fun _ _ _ => 1) (fun x _ _ => 1 + x) (fun i j _ _ _ => delta i j) (fun i j _ _ _ => match i, j with D1, D2 | D2, D1 => 1 | _, _ => 0 end) (fun i j _ _ _ => delta i j) (fun _ _ _ _ => 0) (fun i _ y _ => match i with D1 => y | _ => 0 end)
  (fun _ _ _ _ => 0) (fun k _ _ _ => delta k D1) (fun k _ _ _ => delta k D1) (fun _ _ _ _ _ _ => 0).
Definition in88 : bs_in := MkBs 0 (fun n => match n with O => 1 | _ => 0 end) (fun n => match n with 0%nat | 3%nat | 5%nat | 8%nat | 13%nat | 17%nat => 1 | 18%nat => 2 | _ => 0 end) (fun _ => 0) (fun _ => 0) (fun _ => 0) (fun _ => 0) (fun n => match n with O => 1 | _ => 0 end) (fun _ => 0) (fun _ => 0) (fun _ => 0)
  (fun n => match n with O => 1 | _ => 0 end) (fun _ => 0) (fun n => match n with 1%nat => 1 | _ => 0 end) (fun _ => 0) 0 0 (fun f => match f with FforceKzerofactor => true | _ => false end) (fun _ => 0).
Lemma dl_1 c x : derivable_pt_lim (fun t => c + t) x 1.
Proof. assert (Q := derivable_pt_lim_plus (fun _ => c) id x 0 1 (derivable_pt_lim_const c x) (derivable_pt_lim_id x)). rewrite Rplus_0_l in Q. exact Q. Qed.
Lemma dl_e k x : derivable_pt_lim (fun t => 1 ^ 4 * exp (4 * t) * k) x (4 * exp (4 * x) * k).
Proof.
  assert (Q : derivable_pt_lim (fun t => (1 ^ 4 * k) * exp (4 * t)) x ((1 ^ 4 * k) * (exp (4 * x) * (4 * 1)))).
  { apply derivable_pt_lim_scal. apply (derivable_pt_lim_comp (fun t => 4 * t) exp x (4 * 1)); [apply derivable_pt_lim_scal, derivable_pt_lim_id|apply derivable_pt_lim_exp]. }
  replace (4 * exp (4 * x) * k) with (1 ^ 4 * k * (exp (4 * x) * (4 * 1))) by ring. assert (G : (fun t => 1 ^ 4 * exp (4 * t) * k) = (fun t => (1 ^ 4 * k) * exp (4 * t))) by (apply functional_extensionality; intros; ring). rewrite G. exact Q.
Qed.
Ltac d88 := intros; repeat match goal with i : d3 |- _ => destruct i end; cbn [pd]; first [apply derivable_pt_lim_const | apply derivable_pt_lim_id | apply dl_1].
Example C88_case : bssn_near 1 0 2 0 F88 /\ bssn_sampled in88 0 2 0 F88 /\
  (forall x y z, near 1 0 2 0 x y z -> inverse (fun i j => Bh F88 i j x y z) (fun i j => exp (- (4 * x)) * delta i j) /\ forall k i j, pd (Bh F88 i j) k x y z (4 * exp (4 * x) * delta i j * delta k D1)) /\
  trace (fun i j => Bgi F88 i j 0 2 0) (fun i j => BA F88 i j 0 2 0) = 0 /\ s_dt in88 = 0 /\ s_flag in88 FforceKzerofactor = true /\ s_flag in88 FGentlePhiRHS = false.
Proof.
  split; [|split; [|split; [|split; [unfold trace, SS, S3; cbn; ring|repeat split; reflexivity]]]].
  - intros x y z _. cbn. split; [lra|]. split; [d88|]. split; [d88|]. split; [d88|]. split; [d88|]. split; [intros [] []; reflexivity|]. split; [intros [] []; reflexivity|]. split; [intros [] []; cbv; ring|]. intros []; unfold SS, S3, christoffel; cbn; unfold S3; ring.
  - unfold bssn_sampled. repeat match goal with |- _ /\ _ => split end; cbn; intros; repeat match goal with i : d3 |- _ => destruct i end; cbn; try ring; first [apply derivable_pt_lim_const | apply derivable_pt_lim_id | apply dl_1 | rewrite Rmult_0_l; apply derivable_pt_lim_const].
  - intros x y z _. split.
    + assert (Q : exp (- (4 * x)) * exp (4 * x) = 1) by (rewrite <- exp_plus, Rplus_opp_l; apply exp_0). intros i j. unfold S3, Bh, phys_metric, F88, Bg, Bpsi, Bphi. destruct i, j; cbn [delta]; first [ring|transitivity (exp (- (4 * x)) * exp (4 * x)); [ring|exact Q]].
    + intros k i j. unfold Bh, phys_metric, F88, Bg, Bpsi, Bphi. destruct k; cbn [pd delta]; [rewrite Rmult_1_r; apply dl_e| |]; rewrite Rmult_0_r; apply derivable_pt_lim_const.
Qed.
