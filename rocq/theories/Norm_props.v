(** C85: the normalised constraints. *)
From Verif Require Import Rutil Coord_model Coord_spec Adm_model Adm_spec Adm_proofs Adm2_proofs Adm_props Gam_proofs Bh_model Bh_proofs Bh_props.
From Coq Require Import List Lia FunctionalExtensionality Arith.
Import ListNotations.
Local Open Scope R_scope.
(** a quotient whose numerator is no larger than its positive denominator *)
Lemma quot_le x d : Rabs x <= d -> Rabs (if Rle_dec d 0 then 0 else x / d) <= 1.
Proof. intros H. destruct (Rle_dec d 0); [rewrite Rabs_R0; lra|]. unfold Rdiv. rewrite Rabs_mult, (Rabs_pos_eq (/ d)) by (left; apply Rinv_0_lt_compat; lra). apply (Rmult_le_reg_r d); [lra|]. rewrite Rmult_assoc, Rinv_l by lra. lra. Qed.
(** the full claim is that the normalised constraints lie between -1 and 1, for both ways of normalising; it holds if ADMvars_ConstraintNorm is not TermByTerm *)
Theorem C85_normalised_partial a X Y Z e F hi dh : setting a X Y Z e F hi dh -> a_term a = false ->
  Rabs (adm_normham a) <= 1 /\ Rabs (adm_normmom1 a) + Rabs (adm_normmom2 a) + Rabs (adm_normmom3 a) <= 1.
Proof.
  intros H T. split.
  - apply quot_le. unfold adm_denom_3. rewrite T. unfold adm_ham, adm_denom_2, pow2. set (x := adm_hamrhs_3 a). set (y := adm_KudKud a). set (z := adm_R a). set (k := adm_K a * adm_K a). assert (0 <= k) by (unfold k; nra). unfold Rabs. repeat destruct Rcase_abs; lra.
  - assert (B : forall i, Rabs (v_mom a i) <= match i with D1 => adm_denom1_2 a | D2 => adm_denom2_2 a | D3 => adm_denom3_2 a end).
    { intros i. rewrite (mom_X a X Y Z e F hi dh H i). unfold momentum.
      assert (E1 : SS (fun j k => v_ginv a j k * cov (v_ga a) (i_K a) (i_dK a) j i k) = S3 (fun k => v_cKu a k i k)) by (unfold SS, S3; rewrite !cKu_i; unfold S3; rewrite !cK_i; change (v_ginv a D2 D1) with (v_ginv a D1 D2); change (v_ginv a D3 D1) with (v_ginv a D1 D3); change (v_ginv a D3 D2) with (v_ginv a D2 D3); ring).
      assert (E2 : SS (fun j k => v_ginv a j k * cov (v_ga a) (i_K a) (i_dK a) i j k) = v_dtrK a i) by (rewrite dtrK_i; unfold trace, SS, S3; rewrite !cK_i; ring).
      rewrite E1, E2. assert (TR : forall p q r P Q, P = Rabs p -> Q = Rabs q -> Rabs (p - q - r) <= P + Q + Rabs r) by (intros p q r P Q -> ->; unfold Rabs; repeat destruct Rcase_abs; lra).
      destruct i; cbn [v_dtrK momrhs]; unfold adm_denom1_2, adm_denom2_2, adm_denom3_2; apply TR; reflexivity. }
    pose proof (B D1) as B1. pose proof (B D2) as B2. pose proof (B D3) as B3. cbv beta iota delta [v_mom] in B1, B2, B3. unfold adm_normmom1, adm_normmom2, adm_normmom3, adm_denom_4, adm_denom1_3, adm_denom2_3, adm_denom3_3. rewrite T.
    set (d := adm_denom1_2 a + adm_denom2_2 a + adm_denom3_2 a). destruct (Rle_dec d 0); [rewrite !Rabs_R0; lra|]. assert (P : 0 < / d) by (apply Rinv_0_lt_compat; lra). unfold Rdiv. rewrite !Rabs_mult, (Rabs_pos_eq (/ d)) by lra. apply (Rmult_le_reg_r d); [lra|]. rewrite <- !Rmult_plus_distr_r, Rmult_assoc, Rinv_l by lra. unfold d. lra.
Qed.
(** ** with TermByTerm the claim is false: the parts RB and RC of the Ricci tensor are not symmetric, but the code stores their components 12 and 21, 13 and 31, 23 and 32 in one variable, so that the parts do not add up to R *)
(** g_11 = 1 - 2 y^2, g_12 = 1/2 + x y, g_22 = 1 + 3/2 x^2, g_33 = 1, at the origin, psi = 1 and K = 0 *)
Definition g85 (i j : d3) : fn3 := fun x y z => match i, j with D1, D1 => 1 - 2 * (y * y) | D1, D2 | D2, D1 => 1 / 2 + x * y | D2, D2 => 1 + 3 / 2 * (x * x) | D3, D3 => 1 | _, _ => 0 end.
Definition dg85 (k i j : d3) : fn3 := fun x y z => match k, i, j with D2, D1, D1 => - 4 * y | D1, D1, D2 | D1, D2, D1 => y | D2, D1, D2 | D2, D2, D1 => x | D1, D2, D2 => 3 * x | _, _, _ => 0 end.
Definition dd85 (k l i j : d3) : R := match k, l, i, j with D2, D2, D1, D1 => - 4 | D2, D1, D1, D2 | D2, D1, D2, D1 | D1, D2, D1, D2 | D1, D2, D2, D1 => 1 | D1, D1, D2, D2 => 3 | _, _, _, _ => 0 end.
Definition ginv85 (i j : d3) : R := match i, j with D1, D1 | D2, D2 => 4 / 3 | D1, D2 | D2, D1 => - 2 / 3 | D3, D3 => 1 | _, _ => 0 end.
Definition w85 : adm_in := MkAdm (fun n => nth n [1] 0) (fun n => nth n [1; 1 / 2; 0; 1; 0; 1] 0) (fun _ => 0) (fun n => nth n [0; 0; 0; - 4; 0; 0; 0; 1; 0; 0; 0; 0; 0; 0; 0; 0; 0; 0; 3] 0) (fun _ => 0) (fun _ => 0) (fun _ => 0) (fun _ => true) true true.
Definition F85 : geometry := MkGeo (fun _ _ _ => 1) g85 (fun _ _ _ _ _ => 0) (fun _ _ _ => 0) (fun _ _ _ _ => 0) dg85 (fun _ _ _ _ => 0).
Definition h85 (x y : R) : R := (1 - 2 * (y * y)) * (1 + 3 / 2 * (x * x)) - (1 / 2 + x * y) * (1 / 2 + x * y).
Definition hi85 (i j : d3) : fn3 := fun x y z => match i, j with D1, D1 => (1 + 3 / 2 * (x * x)) / h85 x y | D1, D2 | D2, D1 => - (1 / 2 + x * y) / h85 x y | D2, D2 => (1 - 2 * (y * y)) / h85 x y | D3, D3 => 1 | _, _ => 0 end.
Lemma pd_x2 c X Y Z k : pd (fun x y z => c * (x * x)) k X Y Z (match k with D1 => 2 * c * X | _ => 0 end).
Proof. eapply pd_val; [|apply (pd_scal c (fun x y z => x * x)), (pd_mult (fun x _ _ => x) (fun x _ _ => x)); instantiate (1 := match k with D1 => 1 | _ => 0 end)]; [destruct k; ring| |]; destruct k; cbn; try apply derivable_pt_lim_const; apply derivable_pt_lim_id. Qed.
Lemma pd_y2 c X Y Z k : pd (fun x y z => c * (y * y)) k X Y Z (match k with D2 => 2 * c * Y | _ => 0 end).
Proof. eapply pd_val; [|apply (pd_scal c (fun x y z => y * y)), (pd_mult (fun _ y _ => y) (fun _ y _ => y)); instantiate (1 := match k with D2 => 1 | _ => 0 end)]; [destruct k; ring| |]; destruct k; cbn; try apply derivable_pt_lim_const; apply derivable_pt_lim_id. Qed.
Lemma pd_xy X Y Z k : pd (fun x y z => x * y) k X Y Z (match k with D1 => Y | D2 => X | D3 => 0 end).
Proof. eapply pd_val; [|apply (pd_mult (fun x _ _ => x) (fun _ y _ => y)); [instantiate (1 := match k with D1 => 1 | _ => 0 end)|instantiate (1 := match k with D2 => 1 | _ => 0 end)]]; [destruct k; ring| |]; destruct k; cbn; try apply derivable_pt_lim_const; apply derivable_pt_lim_id. Qed.
Lemma pd_g85 k i j X Y Z : pd (g85 i j) k X Y Z (dg85 k i j X Y Z).
Proof.
  assert (A : pd (fun x y z => 1 - 2 * (y * y)) k X Y Z (match k with D2 => - 4 * Y | _ => 0 end)) by (eapply pd_val; [|apply pd_minus; [apply pd_const|apply pd_y2]]; destruct k; ring).
  assert (B : pd (fun x y z => 1 / 2 + x * y) k X Y Z (match k with D1 => Y | D2 => X | D3 => 0 end)) by (eapply pd_val; [|apply pd_plus; [apply pd_const|apply pd_xy]]; destruct k; ring).
  assert (C : pd (fun x y z => 1 + 3 / 2 * (x * x)) k X Y Z (match k with D1 => 3 * X | _ => 0 end)) by (eapply pd_val; [|apply pd_plus; [apply pd_const|apply pd_x2]]; destruct k; field).
  unfold g85, dg85. destruct i, j; try (destruct k; assumption); try (eapply pd_val; [|apply pd_const]; destruct k; reflexivity).
Qed.
Lemma pd_dg85 k l i j X Y Z : pd (dg85 k i j) l X Y Z (dd85 k l i j).
Proof.
  assert (LX : forall c, pd (fun x _ _ => c * x) l X Y Z (match l with D1 => c | _ => 0 end)) by (intros c; eapply pd_val; [|apply (pd_scal c (fun x _ _ => x)); instantiate (1 := match l with D1 => 1 | _ => 0 end)]; [destruct l; ring|]; destruct l; cbn; try apply derivable_pt_lim_const; apply derivable_pt_lim_id).
  assert (LY : forall c, pd (fun _ y _ => c * y) l X Y Z (match l with D2 => c | _ => 0 end)) by (intros c; eapply pd_val; [|apply (pd_scal c (fun _ y _ => y)); instantiate (1 := match l with D2 => 1 | _ => 0 end)]; [destruct l; ring|]; destruct l; cbn; try apply derivable_pt_lim_const; apply derivable_pt_lim_id).
  assert (E0 : forall m, m = 0 -> pd (fun _ _ _ => 0) l X Y Z m) by (intros m ->; apply pd_const).
  assert (EX : pd (fun x _ _ => x) l X Y Z (match l with D1 => 1 | _ => 0 end)) by (destruct l; cbn; try apply derivable_pt_lim_const; apply derivable_pt_lim_id).
  assert (EY : pd (fun _ y _ => y) l X Y Z (match l with D2 => 1 | _ => 0 end)) by (destruct l; cbn; try apply derivable_pt_lim_const; apply derivable_pt_lim_id).
  pose proof (LX 3). pose proof (LY (-4)). unfold dg85, dd85. destruct k, i, j; try (apply E0; destruct l; reflexivity); destruct l; assumption.
Qed.
Lemma h85_pos x y z : near (1 / 10) 0 0 0 x y z -> 0 < h85 x y.
Proof.
  intros (A & B & _). rewrite Rminus_0_r in A, B. apply Rabs_def2 in A, B. assert (x * x <= 1 / 100) by nra. assert (y * y <= 1 / 100) by nra. assert (0 <= x * x) by nra. assert (- (1 / 100) <= x * y <= 1 / 100) by nra.
  unfold h85. assert (98 / 100 <= (1 - 2 * (y * y)) * (1 + 3 / 2 * (x * x))) by nra. nra.
Qed.
Lemma set85 : setting w85 0 0 0 (1 / 10) F85 hi85 dg85.
Proof.
  split; [lra|]. split; [|split; [|split]].
  - intros x y z N. cbn [Fpsi dpsi Fg dg Falpha dalpha F85]. split; [|split]; intros; [apply (pd_const 1)|apply pd_g85|apply (pd_const 0)].
  - intros x y z N i j. split; [destruct i, j; reflexivity|reflexivity].
  - unfold sampled, F85, w85. cbn [a_psi a_u a_dg a_ddg a_dK a_dalp a_ddalp Fpsi Fg FK Falpha dpsi dg dalpha]. repeat apply conj; try reflexivity.
    + intros k. destruct k; cbn; ring.
    + intros k l. eapply pd_val; [|apply (pd_const 0)]. destruct k, l; cbn; ring.
    + intros i j. unfold g85. destruct i, j; cbn [s6 nth]; lra.
    + intros k i j. unfold dg85. destruct k, i, j; lra.
    + intros k l i j. eapply pd_val; [|apply pd_dg85]. destruct k, l, i, j; reflexivity.
    + intros i j. destruct i, j; reflexivity.
    + intros; apply (pd_const 0).
    + intros; apply (pd_const 0).
  - intros x y z N. pose proof (h85_pos x y z N) as P. split.
    + intros i j. unfold metric, F85, S3, g85, hi85. cbn [Fpsi Fg]. destruct i, j; cbn [delta]; try ring; unfold h85 in *; field; lra.
    + intros k i j. apply (pd_ext (g85 i j) _ _ _ _ _ _ 1 Rlt_0_1); [|apply pd_g85]. intros u v t _. unfold metric, F85. cbn [Fpsi Fg]. ring.
Qed.
Lemma GI i j : v_ginv w85 i j = ginv85 i j.
Proof. rewrite <- (hi_X _ _ _ _ _ _ _ _ set85). unfold hi85, ginv85, h85. destruct i, j; cbn; try reflexivity; field. Qed.
Lemma DDV k l i j : v_ddg w85 k l i j = dd85 k l i j.
Proof. eapply pd_unique; [apply (ddh_X _ _ _ _ _ _ _ _ set85)|apply pd_dg85]. Qed.
Lemma DV k i j : v_dg w85 k i j = 0.
Proof. rewrite <- (dh_X _ _ _ _ _ _ _ _ set85). unfold dg85. destruct k, i, j; lra. Qed.
Lemma Z c i j : v_ga w85 c i j = 0.
Proof. rewrite ga_i. unfold S3. rewrite !gd_i, !DV. ring. Qed.
Theorem C85_normalised_refuted : setting w85 0 0 0 (1 / 10) F85 hi85 dg85 /\ a_term w85 = true /\ adm_normham w85 = 9 / 2.
Proof.
  split; [exact set85|]. split; [reflexivity|].
  assert (ER : adm_R w85 = 4).
  { rewrite Rs_i. unfold trace, SS, S3. assert (RV : forall i j, (n3 j <= n3 i)%nat -> v_R w85 i j = SS (fun c d => ginv85 c d * (1 / 2 * (dd85 i c j d + dd85 j c i d - dd85 c d i j - dd85 i j c d)))).
    { intros i j L. rewrite (R_i w85 i j L). unfold SS, S3. rewrite !GI, !DDV, !Z. ring. }
    change (v_R w85 D1 D2) with (v_R w85 D2 D1). change (v_R w85 D1 D3) with (v_R w85 D3 D1). change (v_R w85 D2 D3) with (v_R w85 D3 D2). rewrite !RV by (cbn; repeat constructor). rewrite !GI. unfold SS, S3, ginv85, dd85. field. }
  assert (EC : adm_RC w85 = 0) by (cbv beta delta [adm_RC adm_RC11 adm_RC12_2 adm_RC13_2 adm_RC22 adm_RC23_2 adm_RC33]; rewrite ?(Z D1 D1 D1 : adm_gamma111 w85 = 0), ?(Z D1 D1 D2 : adm_gamma112 w85 = 0), ?(Z D1 D1 D3 : adm_gamma113 w85 = 0), ?(Z D1 D2 D1 : adm_gamma121 w85 = 0), ?(Z D1 D2 D2 : adm_gamma122 w85 = 0), ?(Z D1 D2 D3 : adm_gamma123 w85 = 0), ?(Z D1 D3 D1 : adm_gamma131 w85 = 0), ?(Z D1 D3 D2 : adm_gamma132 w85 = 0), ?(Z D1 D3 D3 : adm_gamma133 w85 = 0), ?(Z D2 D1 D1 : adm_gamma211 w85 = 0), ?(Z D2 D1 D2 : adm_gamma212 w85 = 0), ?(Z D2 D1 D3 : adm_gamma213 w85 = 0), ?(Z D2 D2 D1 : adm_gamma221 w85 = 0), ?(Z D2 D2 D2 : adm_gamma222 w85 = 0), ?(Z D2 D2 D3 : adm_gamma223 w85 = 0), ?(Z D2 D3 D1 : adm_gamma231 w85 = 0), ?(Z D2 D3 D2 : adm_gamma232 w85 = 0), ?(Z D2 D3 D3 : adm_gamma233 w85 = 0), ?(Z D3 D1 D1 : adm_gamma311 w85 = 0), ?(Z D3 D1 D2 : adm_gamma312 w85 = 0), ?(Z D3 D1 D3 : adm_gamma313 w85 = 0), ?(Z D3 D2 D1 : adm_gamma321 w85 = 0), ?(Z D3 D2 D2 : adm_gamma322 w85 = 0), ?(Z D3 D2 D3 : adm_gamma323 w85 = 0), ?(Z D3 D3 D1 : adm_gamma331 w85 = 0), ?(Z D3 D3 D2 : adm_gamma332 w85 = 0), ?(Z D3 D3 D3 : adm_gamma333 w85 = 0); ring).
  assert (ED : adm_RD w85 = 0) by (cbv beta delta [adm_RD adm_RD11 adm_RD12_2 adm_RD13_2 adm_RD22 adm_RD23_2 adm_RD33]; rewrite ?(Z D1 D1 D1 : adm_gamma111 w85 = 0), ?(Z D1 D1 D2 : adm_gamma112 w85 = 0), ?(Z D1 D1 D3 : adm_gamma113 w85 = 0), ?(Z D1 D2 D1 : adm_gamma121 w85 = 0), ?(Z D1 D2 D2 : adm_gamma122 w85 = 0), ?(Z D1 D2 D3 : adm_gamma123 w85 = 0), ?(Z D1 D3 D1 : adm_gamma131 w85 = 0), ?(Z D1 D3 D2 : adm_gamma132 w85 = 0), ?(Z D1 D3 D3 : adm_gamma133 w85 = 0), ?(Z D2 D1 D1 : adm_gamma211 w85 = 0), ?(Z D2 D1 D2 : adm_gamma212 w85 = 0), ?(Z D2 D1 D3 : adm_gamma213 w85 = 0), ?(Z D2 D2 D1 : adm_gamma221 w85 = 0), ?(Z D2 D2 D2 : adm_gamma222 w85 = 0), ?(Z D2 D2 D3 : adm_gamma223 w85 = 0), ?(Z D2 D3 D1 : adm_gamma231 w85 = 0), ?(Z D2 D3 D2 : adm_gamma232 w85 = 0), ?(Z D2 D3 D3 : adm_gamma233 w85 = 0), ?(Z D3 D1 D1 : adm_gamma311 w85 = 0), ?(Z D3 D1 D2 : adm_gamma312 w85 = 0), ?(Z D3 D1 D3 : adm_gamma313 w85 = 0), ?(Z D3 D2 D1 : adm_gamma321 w85 = 0), ?(Z D3 D2 D2 : adm_gamma322 w85 = 0), ?(Z D3 D2 D3 : adm_gamma323 w85 = 0), ?(Z D3 D3 D1 : adm_gamma331 w85 = 0), ?(Z D3 D3 D2 : adm_gamma332 w85 = 0), ?(Z D3 D3 D3 : adm_gamma333 w85 = 0); ring).
  assert (EA : adm_RA w85 = 0) by (cbv beta delta [adm_RA adm_RA11 adm_RA12 adm_RA13 adm_RA22 adm_RA23 adm_RA33]; rewrite ?(GI D1 D1 : adm_ginv11 w85 = ginv85 D1 D1), ?(GI D1 D2 : adm_ginv12 w85 = ginv85 D1 D2), ?(GI D1 D3 : adm_ginv13 w85 = ginv85 D1 D3), ?(GI D2 D2 : adm_ginv22 w85 = ginv85 D2 D2), ?(GI D2 D3 : adm_ginv23 w85 = ginv85 D2 D3), ?(GI D3 D3 : adm_ginv33 w85 = ginv85 D3 D3); rewrite ?(DDV D1 D1 D1 D1 : adm_deldelg1111_2 w85 = dd85 D1 D1 D1 D1), ?(DDV D1 D1 D1 D2 : adm_deldelg1112_2 w85 = dd85 D1 D1 D1 D2), ?(DDV D1 D1 D1 D3 : adm_deldelg1113_2 w85 = dd85 D1 D1 D1 D3), ?(DDV D1 D1 D2 D2 : adm_deldelg1122_2 w85 = dd85 D1 D1 D2 D2), ?(DDV D1 D1 D2 D3 : adm_deldelg1123_2 w85 = dd85 D1 D1 D2 D3), ?(DDV D1 D1 D3 D3 : adm_deldelg1133_2 w85 = dd85 D1 D1 D3 D3), ?(DDV D1 D2 D1 D1 : adm_deldelg1211_2 w85 = dd85 D1 D2 D1 D1), ?(DDV D1 D2 D1 D2 : adm_deldelg1212_2 w85 = dd85 D1 D2 D1 D2), ?(DDV D1 D2 D1 D3 : adm_deldelg1213_2 w85 = dd85 D1 D2 D1 D3), ?(DDV D1 D2 D2 D2 : adm_deldelg1222_2 w85 = dd85 D1 D2 D2 D2), ?(DDV D1 D2 D2 D3 : adm_deldelg1223_2 w85 = dd85 D1 D2 D2 D3), ?(DDV D1 D2 D3 D3 : adm_deldelg1233_2 w85 = dd85 D1 D2 D3 D3), ?(DDV D1 D3 D1 D1 : adm_deldelg1311_2 w85 = dd85 D1 D3 D1 D1), ?(DDV D1 D3 D1 D2 : adm_deldelg1312_2 w85 = dd85 D1 D3 D1 D2), ?(DDV D1 D3 D1 D3 : adm_deldelg1313_2 w85 = dd85 D1 D3 D1 D3), ?(DDV D1 D3 D2 D2 : adm_deldelg1322_2 w85 = dd85 D1 D3 D2 D2), ?(DDV D1 D3 D2 D3 : adm_deldelg1323_2 w85 = dd85 D1 D3 D2 D3), ?(DDV D1 D3 D3 D3 : adm_deldelg1333_2 w85 = dd85 D1 D3 D3 D3), ?(DDV D2 D2 D1 D1 : adm_deldelg2211_2 w85 = dd85 D2 D2 D1 D1), ?(DDV D2 D2 D1 D2 : adm_deldelg2212_2 w85 = dd85 D2 D2 D1 D2), ?(DDV D2 D2 D1 D3 : adm_deldelg2213_2 w85 = dd85 D2 D2 D1 D3), ?(DDV D2 D2 D2 D2 : adm_deldelg2222_2 w85 = dd85 D2 D2 D2 D2), ?(DDV D2 D2 D2 D3 : adm_deldelg2223_2 w85 = dd85 D2 D2 D2 D3), ?(DDV D2 D2 D3 D3 : adm_deldelg2233_2 w85 = dd85 D2 D2 D3 D3), ?(DDV D2 D3 D1 D1 : adm_deldelg2311_2 w85 = dd85 D2 D3 D1 D1), ?(DDV D2 D3 D1 D2 : adm_deldelg2312_2 w85 = dd85 D2 D3 D1 D2), ?(DDV D2 D3 D1 D3 : adm_deldelg2313_2 w85 = dd85 D2 D3 D1 D3), ?(DDV D2 D3 D2 D2 : adm_deldelg2322_2 w85 = dd85 D2 D3 D2 D2), ?(DDV D2 D3 D2 D3 : adm_deldelg2323_2 w85 = dd85 D2 D3 D2 D3), ?(DDV D2 D3 D3 D3 : adm_deldelg2333_2 w85 = dd85 D2 D3 D3 D3), ?(DDV D3 D3 D1 D1 : adm_deldelg3311_2 w85 = dd85 D3 D3 D1 D1), ?(DDV D3 D3 D1 D2 : adm_deldelg3312_2 w85 = dd85 D3 D3 D1 D2), ?(DDV D3 D3 D1 D3 : adm_deldelg3313_2 w85 = dd85 D3 D3 D1 D3), ?(DDV D3 D3 D2 D2 : adm_deldelg3322_2 w85 = dd85 D3 D3 D2 D2), ?(DDV D3 D3 D2 D3 : adm_deldelg3323_2 w85 = dd85 D3 D3 D2 D3), ?(DDV D3 D3 D3 D3 : adm_deldelg3333_2 w85 = dd85 D3 D3 D3 D3); unfold ginv85, dd85; field).
  assert (EB : adm_RB w85 = 8 / 9) by (cbv beta delta [adm_RB adm_RB11 adm_RB12_2 adm_RB13_2 adm_RB22 adm_RB23_2 adm_RB33]; rewrite ?(GI D1 D1 : adm_ginv11 w85 = ginv85 D1 D1), ?(GI D1 D2 : adm_ginv12 w85 = ginv85 D1 D2), ?(GI D1 D3 : adm_ginv13 w85 = ginv85 D1 D3), ?(GI D2 D2 : adm_ginv22 w85 = ginv85 D2 D2), ?(GI D2 D3 : adm_ginv23 w85 = ginv85 D2 D3), ?(GI D3 D3 : adm_ginv33 w85 = ginv85 D3 D3); rewrite ?(DDV D1 D1 D1 D1 : adm_deldelg1111_2 w85 = dd85 D1 D1 D1 D1), ?(DDV D1 D1 D1 D2 : adm_deldelg1112_2 w85 = dd85 D1 D1 D1 D2), ?(DDV D1 D1 D1 D3 : adm_deldelg1113_2 w85 = dd85 D1 D1 D1 D3), ?(DDV D1 D1 D2 D2 : adm_deldelg1122_2 w85 = dd85 D1 D1 D2 D2), ?(DDV D1 D1 D2 D3 : adm_deldelg1123_2 w85 = dd85 D1 D1 D2 D3), ?(DDV D1 D1 D3 D3 : adm_deldelg1133_2 w85 = dd85 D1 D1 D3 D3), ?(DDV D1 D2 D1 D1 : adm_deldelg1211_2 w85 = dd85 D1 D2 D1 D1), ?(DDV D1 D2 D1 D2 : adm_deldelg1212_2 w85 = dd85 D1 D2 D1 D2), ?(DDV D1 D2 D1 D3 : adm_deldelg1213_2 w85 = dd85 D1 D2 D1 D3), ?(DDV D1 D2 D2 D2 : adm_deldelg1222_2 w85 = dd85 D1 D2 D2 D2), ?(DDV D1 D2 D2 D3 : adm_deldelg1223_2 w85 = dd85 D1 D2 D2 D3), ?(DDV D1 D2 D3 D3 : adm_deldelg1233_2 w85 = dd85 D1 D2 D3 D3), ?(DDV D1 D3 D1 D1 : adm_deldelg1311_2 w85 = dd85 D1 D3 D1 D1), ?(DDV D1 D3 D1 D2 : adm_deldelg1312_2 w85 = dd85 D1 D3 D1 D2), ?(DDV D1 D3 D1 D3 : adm_deldelg1313_2 w85 = dd85 D1 D3 D1 D3), ?(DDV D1 D3 D2 D2 : adm_deldelg1322_2 w85 = dd85 D1 D3 D2 D2), ?(DDV D1 D3 D2 D3 : adm_deldelg1323_2 w85 = dd85 D1 D3 D2 D3), ?(DDV D1 D3 D3 D3 : adm_deldelg1333_2 w85 = dd85 D1 D3 D3 D3), ?(DDV D2 D2 D1 D1 : adm_deldelg2211_2 w85 = dd85 D2 D2 D1 D1), ?(DDV D2 D2 D1 D2 : adm_deldelg2212_2 w85 = dd85 D2 D2 D1 D2), ?(DDV D2 D2 D1 D3 : adm_deldelg2213_2 w85 = dd85 D2 D2 D1 D3), ?(DDV D2 D2 D2 D2 : adm_deldelg2222_2 w85 = dd85 D2 D2 D2 D2), ?(DDV D2 D2 D2 D3 : adm_deldelg2223_2 w85 = dd85 D2 D2 D2 D3), ?(DDV D2 D2 D3 D3 : adm_deldelg2233_2 w85 = dd85 D2 D2 D3 D3), ?(DDV D2 D3 D1 D1 : adm_deldelg2311_2 w85 = dd85 D2 D3 D1 D1), ?(DDV D2 D3 D1 D2 : adm_deldelg2312_2 w85 = dd85 D2 D3 D1 D2), ?(DDV D2 D3 D1 D3 : adm_deldelg2313_2 w85 = dd85 D2 D3 D1 D3), ?(DDV D2 D3 D2 D2 : adm_deldelg2322_2 w85 = dd85 D2 D3 D2 D2), ?(DDV D2 D3 D2 D3 : adm_deldelg2323_2 w85 = dd85 D2 D3 D2 D3), ?(DDV D2 D3 D3 D3 : adm_deldelg2333_2 w85 = dd85 D2 D3 D3 D3), ?(DDV D3 D3 D1 D1 : adm_deldelg3311_2 w85 = dd85 D3 D3 D1 D1), ?(DDV D3 D3 D1 D2 : adm_deldelg3312_2 w85 = dd85 D3 D3 D1 D2), ?(DDV D3 D3 D1 D3 : adm_deldelg3313_2 w85 = dd85 D3 D3 D1 D3), ?(DDV D3 D3 D2 D2 : adm_deldelg3322_2 w85 = dd85 D3 D3 D2 D2), ?(DDV D3 D3 D2 D3 : adm_deldelg3323_2 w85 = dd85 D3 D3 D2 D3), ?(DDV D3 D3 D3 D3 : adm_deldelg3333_2 w85 = dd85 D3 D3 D3 D3); unfold ginv85, dd85; field).
  assert (EK : adm_K w85 = 0) by (rewrite K_s; unfold trace, SS, S3, i_K, w85; cbn [a_u s6 nth Nat.add]; ring).
  assert (EKK : adm_KudKud w85 = 0) by (rewrite KK_s; unfold square, SS, S3, i_K, w85; cbn [a_u s6 nth Nat.add]; ring).
  unfold adm_normham, adm_denom_3. cbn [a_term w85]. change (a_term w85) with true. cbv iota. unfold adm_denom, adm_ham, pow2. change (adm_hamrhs_3 w85) with 0. rewrite ER, EA, EB, EC, ED, EK, EKK, !Rabs_R0, (Rabs_pos_eq (8 / 9)) by lra.
  destruct (Rle_dec (0 + 0 + 0 + 8 / 9 + 0 + 0 + 0 * 0) 0); [lra|field].
Qed.
(** ** what TermByTerm divides by: the parts of the Ricci scalar and of the momentum constraint, where for a part that is not symmetric the component below the diagonal stands for both *)
Definition low (T : d3 -> d3 -> R) (i j : d3) : R := if (n3 j <=? n3 i)%nat then T i j else T j i.
Ltac parts l := unfold trace, low, SS, S3; cbn [n3 Nat.leb]; cbv beta iota delta [v_ginv v_ddg v_ga v_gd]; l; ring.
Lemma RA_p a : adm_RA a = - trace (v_ginv a) (fun i j => SS (fun c d => v_ginv a c d * v_ddg a c d i j)).
Proof. parts ltac:(cbv beta delta [adm_RA adm_RA11 adm_RA12 adm_RA13 adm_RA22 adm_RA23 adm_RA33]). Qed.
Lemma RB_p a : adm_RB a = trace (v_ginv a) (low (fun i j => SS (fun c d => v_ginv a c d * v_ddg a i c j d))).
Proof. parts ltac:(cbv beta delta [adm_RB adm_RB11 adm_RB12_2 adm_RB13_2 adm_RB22 adm_RB23_2 adm_RB33]). Qed.
Lemma RC_p a : adm_RC a = trace (v_ginv a) (low (fun i j => SS (fun c d => v_ginv a c d * S3 (fun e => v_ga a e j c * v_gd a e i d)))).
Proof. parts ltac:(cbv beta delta [adm_RC adm_RC11 adm_RC12_2 adm_RC13_2 adm_RC22 adm_RC23_2 adm_RC33]). Qed.
Lemma RD_p a : adm_RD a = - trace (v_ginv a) (low (fun i j => SS (fun c d => v_ginv a c d * S3 (fun e => v_ga a e i j * v_gd a e c d)))).
Proof. parts ltac:(cbv beta delta [adm_RD adm_RD11 adm_RD12_2 adm_RD13_2 adm_RD22 adm_RD23_2 adm_RD33]). Qed.
(** the part of the covariant derivative of K that the code computes twice, as KB and as KC *)
Definition kpart (G : d3 -> d3 -> d3 -> R) (K : d3 -> d3 -> R) (k i j : d3) : R := - S3 (fun e => G e k j * K e i).
Definition v_KA (a : adm_in) (i : d3) : R := match i with D1 => adm_cdKdA1 a | D2 => adm_cdKdA2 a | D3 => adm_cdKdA3 a end.
Definition v_KB (a : adm_in) (i : d3) : R := match i with D1 => adm_cdKdB1 a | D2 => adm_cdKdB2 a | D3 => adm_cdKdB3 a end.
Definition v_KC (a : adm_in) (i : d3) : R := match i with D1 => adm_cdKdC1 a | D2 => adm_cdKdC2 a | D3 => adm_cdKdC3 a end.
Definition v_TA (a : adm_in) (i : d3) : R := match i with D1 => adm_codelTrKA1 a | D2 => adm_codelTrKA2 a | D3 => adm_codelTrKA3 a end.
Definition v_TB (a : adm_in) (i : d3) : R := match i with D1 => adm_codelTrKB1 a | D2 => adm_codelTrKB2 a | D3 => adm_codelTrKB3 a end.
Definition v_TC (a : adm_in) (i : d3) : R := match i with D1 => adm_codelTrKC1 a | D2 => adm_codelTrKC2 a | D3 => adm_codelTrKC3 a end.
Ltac kparts i := destruct i; unfold trace, low, kpart, SS, S3; cbn [n3 Nat.leb]; cbv beta iota delta [v_ginv v_delK v_ga v_K v_KA v_KB v_KC v_TA v_TB v_TC]; cbv beta delta [adm_codelKA111 adm_codelKA112 adm_codelKA113 adm_codelKA122 adm_codelKA123 adm_codelKA133 adm_codelKA211 adm_codelKA212 adm_codelKA213 adm_codelKA222 adm_codelKA223 adm_codelKA233 adm_codelKA311 adm_codelKA312 adm_codelKA313 adm_codelKA322 adm_codelKA323 adm_codelKA333 adm_codelKB111 adm_codelKB112 adm_codelKB112_2 adm_codelKB113 adm_codelKB113_2 adm_codelKB122 adm_codelKB123 adm_codelKB123_2 adm_codelKB133 adm_codelKB211 adm_codelKB212 adm_codelKB212_2 adm_codelKB213 adm_codelKB213_2 adm_codelKB222 adm_codelKB223 adm_codelKB223_2 adm_codelKB233 adm_codelKB311 adm_codelKB312 adm_codelKB312_2 adm_codelKB313 adm_codelKB313_2 adm_codelKB322 adm_codelKB323 adm_codelKB323_2 adm_codelKB333 adm_codelKC111 adm_codelKC112 adm_codelKC112_2 adm_codelKC113 adm_codelKC113_2 adm_codelKC122 adm_codelKC123 adm_codelKC123_2 adm_codelKC133 adm_codelKC211 adm_codelKC212 adm_codelKC212_2 adm_codelKC213 adm_codelKC213_2 adm_codelKC222 adm_codelKC223 adm_codelKC223_2 adm_codelKC233 adm_codelKC311 adm_codelKC312 adm_codelKC312_2 adm_codelKC313 adm_codelKC313_2 adm_codelKC322 adm_codelKC323 adm_codelKC323_2 adm_codelKC333 adm_cdKdA1 adm_cdKdA2 adm_cdKdA3 adm_cdKdB1 adm_cdKdB2 adm_cdKdB3 adm_cdKdC1 adm_cdKdC2 adm_cdKdC3 adm_codelTrKA1 adm_codelTrKA2 adm_codelTrKA3 adm_codelTrKB1 adm_codelTrKB2 adm_codelTrKB3 adm_codelTrKC1 adm_codelTrKC2 adm_codelTrKC3]; ring.
Lemma KA_p a i : v_KA a i = SS (fun j k => v_ginv a j k * v_delK a j i k).
Proof. kparts i. Qed.
Lemma KB_p a i : v_KB a i = SS (fun j k => v_ginv a j k * low (kpart (v_ga a) (v_K a) j) i k).
Proof. kparts i. Qed.
Lemma KC_p a i : v_KC a i = SS (fun j k => v_ginv a j k * low (kpart (v_ga a) (v_K a) j) i k).
Proof. kparts i. Qed.
Lemma TA_p a i : v_TA a i = trace (v_ginv a) (v_delK a i).
Proof. kparts i. Qed.
Lemma TB_p a i : v_TB a i = trace (v_ginv a) (low (kpart (v_ga a) (v_K a) i)).
Proof. kparts i. Qed.
Lemma TC_p a i : v_TC a i = trace (v_ginv a) (low (kpart (v_ga a) (v_K a) i)).
Proof. kparts i. Qed.
(** with TermByTerm the Hamiltonian constraint is divided by the sum of the absolute values of its parts, and the momentum constraint by that of all three components *)
Theorem C85_terms a X Y Z e F hi dh ddh dK : setting a X Y Z e F hi dh -> a_term a = true ->
  (forall k l i j, pd (dh k i j) l X Y Z (ddh k l i j)) -> (forall k i j, pd (FK F i j) k X Y Z (dK k i j)) ->
  let h := fun i j => hi i j X Y Z in let K := fun i j => FK F i j X Y Z in let G := fun i j k => Gam hi dh i j k X Y Z in
  let Gd := fun e i j => 1 / 2 * (dh i j e X Y Z + dh j i e X Y Z - dh e i j X Y Z) in
  let P := Rabs (adm_hamrhs_3 a) + Rabs (square h K) + Rabs (trace h (fun i j => SS (fun c d => h c d * ddh c d i j))) + Rabs (trace h (low (fun i j => SS (fun c d => h c d * ddh i c j d))))
    + Rabs (trace h (fun i j => SS (fun c d => h c d * S3 (fun e => G e i c * Gd e j d)))) + Rabs (trace h (fun i j => SS (fun c d => h c d * S3 (fun e => G e i j * Gd e c d)))) + trace h K ^ 2 in
  let Q := S3 (fun i => Rabs (SS (fun j k => h j k * dK j i k)) + 2 * Rabs (SS (fun j k => h j k * low (kpart G K j) i k)) + Rabs (trace h (dK i)) + 2 * Rabs (trace h (low (kpart G K i))) + Rabs (momrhs a i)) in
  adm_normham a = (if Rle_dec P 0 then 0 else adm_ham a / P) /\ forall i, match i with D1 => adm_normmom1 a | D2 => adm_normmom2 a | D3 => adm_normmom3 a end = (if Rle_dec Q 0 then 0 else v_mom a i / Q).
Proof.
  intros H T Hdd HdK h K G Gd.
  assert (EH : h = v_ginv a) by (extensionality i; extensionality j; apply (hi_X a X Y Z e F hi dh H)).
  assert (EK : K = i_K a) by (extensionality i; extensionality j; apply (K_X a X Y Z e F hi dh H)).
  assert (EG : G = v_ga a) by (extensionality i; extensionality j; extensionality k; apply (G_X a X Y Z e F hi dh H)).
  assert (EGd : Gd = v_gd a) by (extensionality c; extensionality i; extensionality j; unfold Gd; rewrite gd_i, !(dh_X a X Y Z e F hi dh H); reflexivity).
  assert (Edd : ddh = v_ddg a) by (extensionality k; extensionality l; extensionality i; extensionality j; eapply pd_unique; [apply Hdd|apply (ddh_X a X Y Z e F hi dh H)]).
  assert (EdK : dK = v_delK a). { extensionality k; extensionality i; extensionality j. rewrite delK_i. eapply pd_unique; [apply HdK|apply (HA a X Y Z e F hi dh H)]. }
  assert (Kv : v_K a = i_K a) by (extensionality i; extensionality j; apply K_i).
  assert (gas : forall c i j, v_ga a c i j = v_ga a c j i) by apply ga_sym. assert (gds : forall c i j, v_gd a c i j = v_gd a c j i) by apply gd_sym. assert (his : forall i j, v_ginv a i j = v_ginv a j i) by (intros [] []; reflexivity).
  rewrite EH, EK, EG, EGd, Edd, EdK. clearbody h K G Gd. clear EH EK EG EGd Edd EdK. cbv zeta. split.
  - unfold adm_normham, adm_denom_3. rewrite T. unfold adm_denom. rewrite RA_p, RB_p, RC_p, RD_p, !Rabs_Ropp, <- KK_s, <- K_s.
    assert (E1 : trace (v_ginv a) (low (fun i j => SS (fun c d => v_ginv a c d * S3 (fun e => v_ga a e j c * v_gd a e i d)))) = trace (v_ginv a) (fun i j => SS (fun c d => v_ginv a c d * S3 (fun e => v_ga a e i c * v_gd a e j d)))).
    { assert (S : forall i j, SS (fun c d => v_ginv a c d * S3 (fun e => v_ga a e j c * v_gd a e i d)) = SS (fun c d => v_ginv a c d * S3 (fun e => v_ga a e i c * v_gd a e j d))).
      { intros i j. assert (GV : forall e i c, v_ga a e i c = S3 (fun d => v_ginv a e d * v_gd a d i c)) by (intros; apply ga_i). unfold SS. set (gi := v_ginv a) in *. set (gd := v_gd a) in *. unfold S3. rewrite !GV. unfold S3. rewrite ?(his D2 D1), ?(his D3 D1), ?(his D3 D2). clear. ring. }
      unfold trace. apply SSe. intros i j. f_equal. unfold low. destruct (n3 j <=? n3 i)%nat; [apply S|]. reflexivity. }
    assert (E2 : trace (v_ginv a) (low (fun i j => SS (fun c d => v_ginv a c d * S3 (fun e => v_ga a e i j * v_gd a e c d)))) = trace (v_ginv a) (fun i j => SS (fun c d => v_ginv a c d * S3 (fun e => v_ga a e i j * v_gd a e c d)))).
    { unfold trace. apply SSe. intros i j. f_equal. unfold low. destruct (n3 j <=? n3 i)%nat; [reflexivity|]. apply SSe. intros c d. f_equal. apply S3e. intros x. now rewrite (gas x j i). }
    rewrite E1, E2. replace (pow2 (adm_K a)) with (adm_K a ^ 2) by (unfold pow2; ring). reflexivity.
  - assert (EQ : adm_denom_4 a = S3 (fun i => Rabs (SS (fun j k => v_ginv a j k * v_delK a j i k)) + 2 * Rabs (SS (fun j k => v_ginv a j k * low (kpart (v_ga a) (i_K a) j) i k)) + Rabs (trace (v_ginv a) (v_delK a i)) + 2 * Rabs (trace (v_ginv a) (low (kpart (v_ga a) (i_K a) i))) + Rabs (momrhs a i))).
    { unfold adm_denom_4, adm_denom1_3, adm_denom2_3, adm_denom3_3. rewrite T. rewrite <- Kv. rewrite (S3e _ (fun i => Rabs (v_KA a i) + Rabs (v_KB a i) + Rabs (v_KC a i) + Rabs (v_TA a i) + Rabs (v_TB a i) + Rabs (v_TC a i) + Rabs (momrhs a i))) by (intros i; rewrite KA_p, KB_p, KC_p, TA_p, TB_p, TC_p; ring). unfold S3. reflexivity. }
    intros i. rewrite <- EQ. destruct i; reflexivity.
Qed.
(** if the metric is diagonal at the point, the normalised Hamiltonian constraint lies between -1 and 1 with TermByTerm too *)
Theorem C85_diagonal a X Y Z e F hi dh : setting a X Y Z e F hi dh -> a_term a = true -> (forall i j, i <> j -> Fg F i j X Y Z = 0) -> Rabs (adm_normham a) <= 1.
Proof.
  intros H T Hd. assert (OD : forall i j, i <> j -> v_ginv a i j = 0).
  { intros i j N. rewrite <- (hi_X a X Y Z e F hi dh H i j). rewrite (inv_adj (fun i j => metric F i j X Y Z) (fun i j => hi i j X Y Z) i j); [|apply (HI a X Y Z e F hi dh H); apply (N0 a X Y Z e F hi dh H)]. unfold adj, metric. destruct i, j; try congruence; cbn [suc]; rewrite ?(Hd D1 D2), ?(Hd D1 D3), ?(Hd D2 D3), ?(Hd D2 D1), ?(Hd D3 D1), ?(Hd D3 D2) by discriminate; unfold Rdiv; ring. }
  assert (ER : adm_R a = adm_RA a + adm_RB a + adm_RC a + adm_RD a).
  { rewrite Rs_i, RA_p, RB_p, RC_p, RD_p. unfold trace, low. unfold SS at 1 2 3 5 7 9. assert (TD : forall f : d3 -> d3 -> R, S3 (fun i => S3 (fun j => v_ginv a i j * f i j)) = v_ginv a D1 D1 * f D1 D1 + v_ginv a D2 D2 * f D2 D2 + v_ginv a D3 D3 * f D3 D3) by (intros f; unfold S3; rewrite !(OD D1 D2), !(OD D1 D3), !(OD D2 D3), !(OD D2 D1), !(OD D3 D1), !(OD D3 D2) by discriminate; ring).
    rewrite !TD. cbn [n3 Nat.leb]. rewrite !R_i by (cbn; lia). assert (UD : forall f : d3 -> d3 -> R, SS (fun i j => v_ginv a i j * f i j) = v_ginv a D1 D1 * f D1 D1 + v_ginv a D2 D2 * f D2 D2 + v_ginv a D3 D3 * f D3 D3) by (intros f; apply TD). rewrite !UD.
    assert (GV : forall e i c, v_ga a e i c = S3 (fun d => v_ginv a e d * v_gd a d i c)) by (intros; apply ga_i). unfold S3 in *. rewrite !GV, !(OD D1 D2), !(OD D1 D3), !(OD D2 D3), !(OD D2 D1), !(OD D3 D1), !(OD D3 D2) by discriminate.
    rewrite ?(gd_sym a _ D2 D1), ?(gd_sym a _ D3 D1), ?(gd_sym a _ D3 D2). cbv beta iota delta [v_ddg n3 Nat.leb]. field. }
  apply quot_le. unfold adm_denom_3. rewrite T. unfold adm_ham, adm_denom. rewrite ER. set (x := adm_hamrhs_3 a). set (y := adm_KudKud a). set (k := pow2 (adm_K a)). assert (0 <= k) by (unfold k, pow2; nra). unfold Rabs. repeat destruct Rcase_abs; lra.
Qed.
Print Assumptions C85_normalised_partial.
Print Assumptions C85_normalised_refuted.
Print Assumptions C85_terms.
Print Assumptions C85_diagonal.
(** the cases above, with their derivatives, meet the hypotheses; so does the black hole in isotropic coordinates, whose metric is diagonal *)
Example C85_terms_case : setting w85 0 0 0 (1 / 10) F85 hi85 dg85 /\ a_term w85 = true /\ (forall k l i j, pd (dg85 k i j) l 0 0 0 (dd85 k l i j)) /\ (forall k i j, pd (FK F85 i j) k 0 0 0 0).
Proof. split; [exact set85|]. split; [reflexivity|]. split; [intros; apply pd_dg85|intros; apply (pd_const 0)]. Qed.
Example C85_diagonal_case cf : let b := iso_in cf 1 2 1 2 in let a := MkAdm (a_psi b) (a_u b) (a_dg b) (a_ddg b) (a_dK b) (a_dalp b) (a_ddalp b) (a_null b) true true in
  setting a 2 1 2 1 (iso_geo cf 1) (ihi 1) (idh 1) /\ a_term a = true /\ (forall i j, i <> j -> Fg (iso_geo cf 1) i j 2 1 2 = 0).
Proof. intros b a. split; [exact (proj1 (C84_ex cf))|]. split; [reflexivity|]. intros i j N. destruct i, j; try congruence; destruct cf; cbn; reflexivity. Qed.
