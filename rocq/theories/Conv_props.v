(** C86: from ADM to BSSN variables and back. C87: enforcing the algebraic constraints. *)
From Verif Require Import Rutil Coord_model Coord_spec Adm_model Adm_spec Adm2_proofs Conv_model Conv_spec.
Local Open Scope R_scope.
Arguments Rpower : simpl never.
Lemma six n : (n < 6)%nat -> n = 0%nat \/ n = 1%nat \/ n = 2%nat \/ n = 3%nat \/ n = 4%nat \/ n = 5%nat. Proof. lia. Qed.
(** p^3 det = 1 *)
Lemma cube_root d : 0 < d -> let p := Rpower d (- (1 / 3)) in 0 < p /\ p * p * p * d = 1.
Proof.
  intros H p. split; [apply exp_pos|]. unfold p. rewrite <- !Rpower_plus. replace (- (1 / 3) + - (1 / 3) + - (1 / 3)) with (- (1)) by lra. rewrite Rpower_Ropp, Rpower_1 by auto. field. lra.
Qed.
Lemma det_scale c h : det (fun i j => c * h i j) = c * c * c * det h. Proof. unfold det. ring. Qed.
Lemma adj_inverse (f : nat -> R) : det (sym f) <> 0 -> inverse (sym f) (fun i j => adj (sym f) i j / det (sym f)).
Proof. intros N i j. unfold S3, adj, det, sym in *. destruct i, j; cbn [suc s6 delta] in *; field; auto. Qed.
Lemma trace_adj (f : nat -> R) hi T : inverse (sym f) hi -> trace hi T = SS (fun i j => adj (sym f) i j * T i j) / det (sym f).
Proof. intros I. unfold trace, SS, S3. rewrite !(inv_adj _ _ _ _ I). change (det3 (sym f)) with (det (sym f)). unfold Rdiv. ring. Qed.
Lemma inv_nz f hi : inverse (sym f) hi -> det (sym f) <> 0.
Proof. intros I E. pose proof (inv_det _ _ I) as Q. change (det3 (sym f)) with (det (sym f)) in Q. rewrite E in Q. lra. Qed.
Lemma tracefree_iff f T : det (sym f) <> 0 -> (tracefree (sym f) T <-> SS (fun i j => adj (sym f) i j * T i j) = 0).
Proof.
  intros N. split.
  - intros (hi & I & E). rewrite (trace_adj f hi T I) in E. apply (Rmult_eq_reg_r (/ det (sym f))); [|now apply Rinv_neq_0_compat]. unfold Rdiv in E. rewrite E. ring.
  - intros E. exists (fun i j => adj (sym f) i j / det (sym f)). pose proof (adj_inverse f N) as I. split; [exact I|]. rewrite (trace_adj f _ T I), E. unfold Rdiv. ring.
Qed.
Ltac six_cases := let H := fresh in intros H; apply six in H; destruct H as [->|[->|[->|[->|[->| ->]]]]].
(** ** BSSN_init *)
Section I.
Variable a : bi_in.
Hypothesis Hd : 0 < det (sym (bv_g a)).
Hypothesis Hp : bv_psi a <> 0.
Let p := bi_p a. Let p0 := bi_p0 a.
Let detE : bi_detgb a = det (sym (bv_g a)).
Proof. unfold bi_detgb, det, sym, pow2. cbn [s6]. unfold bi_gb11, bi_gb12, bi_gb13, bi_gb22, bi_gb23, bi_gb33. ring. Qed.
Let pE : 0 < p /\ p * p * p * det (sym (bv_g a)) = 1.
Proof. unfold p, bi_p. rewrite detE. apply (cube_root _ Hd). Qed.
Let gtE n : (n < 6)%nat -> bi_gt a n = p * bv_g a n.
Proof. six_cases; reflexivity. Qed.
Let gtsym i j : sym (bi_gt a) i j = p * sym (bv_g a) i j.
Proof. unfold sym. apply gtE. destruct i, j; cbn; lia. Qed.
Let detgt : det (sym (bi_gt a)) = 1.
Proof. transitivity (det (fun i j => p * sym (bv_g a) i j)); [unfold det; now rewrite !gtsym|rewrite det_scale; apply pE]. Qed.
Let detgtinv1 : bi_detgtinv a = 1.
Proof.
  unfold bi_detgtinv. match goal with |- 1 / ?x = 1 => assert (E : x = 1) by (rewrite <- detgt; unfold det, sym, pow2; cbn [s6 bi_gt]; ring); rewrite E end. field.
Qed.
Let KE : bi_K a = SS (fun i j => adj (sym (bi_gt a)) i j * (p * p0 * sym (bv_K a) i j)).
Proof.
  unfold bi_K, bi_gtinv11, bi_gtinv12, bi_gtinv13, bi_gtinv22, bi_gtinv23, bi_gtinv33. rewrite detgtinv1. unfold SS, S3, adj, sym, pow2, bi_Kt11, bi_Kt12, bi_Kt13, bi_Kt22, bi_Kt23, bi_Kt33, bi_K11, bi_K12, bi_K13, bi_K22, bi_K23, bi_K33. cbn [suc s6 bi_gt]. fold p p0. ring.
Qed.
Let AtE n : (n < 6)%nat -> bi_At a n = p * p0 * bv_K a n - 1 / 3 * bi_gt a n * bi_K a.
Proof. six_cases; reflexivity. Qed.
Let p0E : p0 * bv_psi a ^ 4 = 1.
Proof. unfold p0, bi_p0, bi_psi. rewrite Rinv_l; auto. now apply pow_nonzero. Qed.
Lemma init_conformal : det (sym (bi_gt a)) = 1 /\ conformal (sym (bv_g a)) (sym (bi_gt a)).
Proof.
  split; [exact detgt|]. exists (/ p). destruct pE as [Q _]. split; [now apply Rinv_0_lt_compat|]. intros i j. rewrite gtsym. field. lra.
Qed.
Lemma init_tracefree : tracefree (sym (bi_gt a)) (sym (bi_At a)).
Proof.
  apply tracefree_iff; [rewrite detgt; lra|].
  assert (E : forall i j, sym (bi_At a) i j = p * p0 * sym (bv_K a) i j - 1 / 3 * bi_K a * sym (bi_gt a) i j) by (intros i j; unfold sym; rewrite AtE by (destruct i, j; cbn; lia); ring).
  replace (SS _) with (bi_K a - 1 / 3 * bi_K a * (3 * det (sym (bi_gt a)))); [rewrite detgt; lra|]. rewrite KE at 1. unfold SS, S3. rewrite !E. unfold det, adj, sym. cbn [suc s6]. ring.
Qed.
Lemma init_trace hi : inverse (fun i j => bv_psi a ^ 4 * sym (bv_g a) i j) hi -> bi_K a = trace hi (sym (bv_K a)).
Proof.
  intros I. pose proof (pow_nonzero _ 4 Hp) as N.
  assert (I2 : inverse (sym (bi_gt a)) (fun i j => bv_psi a ^ 4 / p * hi i j)).
  { intros i j. rewrite <- (I i j). unfold S3. rewrite !gtsym. field. destruct pE. lra. }
  rewrite KE. assert (Q : forall T, SS (fun i j => adj (sym (bi_gt a)) i j * T i j) = trace (fun i j => bv_psi a ^ 4 / p * hi i j) T) by (intros T; rewrite (trace_adj _ _ T I2), detgt; field).
  rewrite (Q (fun i j => p * p0 * sym (bv_K a) i j)). unfold trace, SS, S3. destruct pE. rewrite (Rmult_comm p p0). assert (forall x y : R, bv_psi a ^ 4 / p * x * (p0 * p * y) = x * y) as F by (intros x y; transitivity (p0 * bv_psi a ^ 4 * (x * y)); [field; lra|rewrite p0E; ring]). rewrite !F. reflexivity.
Qed.
Lemma init_phi : bi_phi a = 1 / 12 * ln (det (sym (bv_g a))).
Proof. unfold bi_phi, bi_p. rewrite detE. unfold Rpower. rewrite ln_exp. field. Qed.
Let fgE : ba_fg (bi_phi a) * p = 1.
Proof.
  unfold ba_fg. rewrite init_phi. unfold p, bi_p. rewrite detE. unfold Rpower. rewrite <- exp_plus. replace (4 * (1 / 12 * ln (det (sym (bv_g a)))) + - (1 / 3) * ln (det (sym (bv_g a)))) with 0 by field. apply exp_0.
Qed.
Lemma init_back n : (n < 6)%nat -> ba_g (bi_phi a) (bi_gt a) n = bv_g a n /\ ba_K (bi_phi a) (bv_psi a) (bi_K a) (bi_gt a) (bi_At a) n = bv_K a n.
Proof.
  intros H. unfold ba_g, ba_K, ba_fK. rewrite AtE by auto. split.
  - rewrite gtE by auto. transitivity (ba_fg (bi_phi a) * p * bv_g a n); [ring|rewrite fgE; ring].
  - transitivity (ba_fg (bi_phi a) * p * (p0 * bv_psi a ^ 4) * bv_K a n); [field|rewrite fgE, p0E; ring].
Qed.
Lemma init_density : bi_alphaDensity a = Rpower (det (fun i j => bv_psi a ^ 4 * sym (bv_g a) i j)) (- bv_w a / 2) * bv_alpha a.
Proof.
  rewrite det_scale. unfold bi_alphaDensity, bi_alphaDensityWeight, bi_alpha. f_equal. fold p p0. set (q := bv_psi a ^ 4) in *. set (d := det (sym (bv_g a))) in *.
  assert (Hq : 0 < q) by (unfold q; assert (0 < bv_psi a * bv_psi a) by (destruct (Rdichotomy _ _ Hp); nra); nra). destruct pE as [P1 P2].
  assert (H0 : 0 < p0) by (fold q in p0E; destruct (Rlt_or_le 0 p0); [auto|nra]).
  assert (E : q * q * q * d = Rpower (p * p0) (- (3))).
  { assert (X : 0 < p * p0) by nra. rewrite Rpower_Ropp. replace 3 with (INR 3) by (cbn; lra). rewrite Rpower_pow by auto. apply (Rmult_eq_reg_r ((p * p0) ^ 3)); [|apply pow_nonzero; lra]. rewrite Rinv_l by (apply pow_nonzero; lra).
    transitivity ((p0 * q) * (p0 * q) * (p0 * q) * (p * p * p * d)); [ring|fold q in p0E; rewrite p0E, P2; ring]. }
  rewrite E, Rpower_mult. f_equal. field.
Qed.
End I.
(** ** C86 *)
Theorem C86_to_bssn a : 0 < det (sym (bv_g a)) -> bv_psi a <> 0 ->
  det (sym (bi_gt a)) = 1 /\ conformal (sym (bv_g a)) (sym (bi_gt a)) /\ tracefree (sym (bi_gt a)) (sym (bi_At a)) /\
  (forall hi, inverse (fun i j => bv_psi a ^ 4 * sym (bv_g a) i j) hi -> bi_K a = trace hi (sym (bv_K a))) /\
  bi_phi a = 1 / 12 * ln (det (sym (bv_g a))) /\
  bi_alphaDensity a = Rpower (det (fun i j => bv_psi a ^ 4 * sym (bv_g a) i j)) (- bv_w a / 2) * bv_alpha a.
Proof.
  intros H N. destruct (init_conformal a H). repeat (split; [try assumption|]); auto using init_tracefree, init_trace, init_phi, init_density.
Qed.
Theorem C86_round_trip a n : 0 < det (sym (bv_g a)) -> bv_psi a <> 0 -> (n < 6)%nat ->
  ba_g (bi_phi a) (bi_gt a) n = bv_g a n /\ ba_K (bi_phi a) (bv_psi a) (bi_K a) (bi_gt a) (bi_At a) n = bv_K a n.
Proof. intros. now apply init_back. Qed.
(** The other way round: BSSN variables with det 1 and trace 0 come back unchanged *)
Theorem C86_round_trip2 a (phi trK : R) (gt At : nat -> R) n : bv_psi a <> 0 -> det (sym gt) = 1 -> tracefree (sym gt) (sym At) ->
  bv_g a = ba_g phi gt -> bv_K a = ba_K phi (bv_psi a) trK gt At -> (n < 6)%nat ->
  bi_gt a n = gt n /\ bi_At a n = At n /\ bi_phi a = phi /\ bi_K a = trK.
Proof.
  intros Hp D T Eg EK Hn. set (c := ba_fg phi). assert (Hc : 0 < c) by apply exp_pos.
  assert (S0 : forall i j, sym (bv_g a) i j = c * sym gt i j) by (intros i j; unfold sym; rewrite Eg; reflexivity).
  assert (Dg : det (sym (bv_g a)) = c * c * c) by (transitivity (det (fun i j => c * sym gt i j)); [unfold det; now rewrite !S0|rewrite det_scale, D; ring]).
  assert (Hd : 0 < det (sym (bv_g a))) by (rewrite Dg; apply Rmult_lt_0_compat; [nra|auto]).
  assert (Ph : bi_phi a = phi).
  { rewrite (init_phi a), Dg. unfold c, ba_fg. rewrite <- !exp_plus, ln_exp. field. }
  destruct (init_back a Hp n Hn) as [B1 B2]. rewrite Ph in B1, B2. rewrite Eg in B1. unfold ba_g in B1. fold c in B1.
  assert (G : forall m, (m < 6)%nat -> bi_gt a m = gt m).
  { intros m Hm. destruct (init_back a Hp m Hm) as [Q _]. rewrite Ph, Eg in Q. unfold ba_g in Q. fold c in Q. apply (Rmult_eq_reg_l c); [exact Q|lra]. }
  assert (Gs : forall i j, sym (bi_gt a) i j = sym gt i j) by (intros i j; unfold sym; apply G; destruct i, j; cbn; lia).
  assert (KK : bi_K a = trK).
  { destruct T as (gi & Ii & Tr). set (q := bv_psi a ^ 4). assert (Nq : q <> 0) by (apply pow_nonzero; auto). assert (Nc : c <> 0) by lra.
    rewrite (init_trace a Hd Hp (fun i j => / (q * c) * gi i j)).
    - assert (Tg : trace gi (sym gt) = 3) by (rewrite (trace_adj gt gi _ Ii), D; unfold SS, S3, adj, sym; cbn [suc s6]; transitivity (3 * det (sym gt)); [unfold det, sym; cbn [s6]; field|rewrite D; lra]).
      transitivity (trace gi (sym At) + trK / 3 * trace gi (sym gt)); [|rewrite Tr, Tg; field]. unfold trace, SS, S3, sym. rewrite EK. unfold ba_K, ba_fK. fold c q. clearbody c q. field. repeat split; assumption.
    - intros i j. fold q. unfold S3. rewrite !S0. transitivity (S3 (fun k => gi i k * sym gt k j)); [unfold S3; clearbody c q; field; repeat split; assumption|apply Ii]. }
  repeat split; auto. rewrite KK in B2. rewrite EK in B2. unfold ba_K in B2. rewrite (G n Hn) in B2.
  assert (F : ba_fK phi (bv_psi a) <> 0) by (unfold ba_fK; fold c; apply Rmult_integral_contrapositive; split; [lra|now apply pow_nonzero]). apply Rmult_eq_reg_l in B2; auto. lra.
Qed.
(** the connection functions are minus the divergence of the inverse metric; for a metric of determinant 1 they are the contracted Christoffel symbols *)
Lemma pd_det (h : d3 -> d3 -> fn3) k X Y Z (d : d3 -> d3 -> R) : (forall i j, pd (h i j) k X Y Z (d i j)) ->
  pd (fun x y z => det (fun i j => h i j x y z)) k X Y Z (SS (fun i j => adj (fun i j => h i j X Y Z) j i * d i j)).
Proof.
  intros H. unfold det. eapply pd_val; [|refine (pd_plus (fun x y z => h D1 D1 x y z * (h D2 D2 x y z * h D3 D3 x y z - h D2 D3 x y z * h D3 D2 x y z) - h D1 D2 x y z * (h D2 D1 x y z * h D3 D3 x y z - h D2 D3 x y z * h D3 D1 x y z)) (fun x y z => h D1 D3 x y z * (h D2 D1 x y z * h D3 D2 x y z - h D2 D2 x y z * h D3 D1 x y z)) k X Y Z _ _ _ _);
    [refine (pd_minus (fun x y z => h D1 D1 x y z * (h D2 D2 x y z * h D3 D3 x y z - h D2 D3 x y z * h D3 D2 x y z)) (fun x y z => h D1 D2 x y z * (h D2 D1 x y z * h D3 D3 x y z - h D2 D3 x y z * h D3 D1 x y z)) k X Y Z _ _ _ _)|]].
  2: refine (pd_mult (h D1 D1) (fun x y z => h D2 D2 x y z * h D3 D3 x y z - h D2 D3 x y z * h D3 D2 x y z) k X Y Z _ _ (H _ _) (pd_minus (fun x y z => h D2 D2 x y z * h D3 D3 x y z) (fun x y z => h D2 D3 x y z * h D3 D2 x y z) k X Y Z _ _ (pd_mult _ _ _ _ _ _ _ _ (H _ _) (H _ _)) (pd_mult _ _ _ _ _ _ _ _ (H _ _) (H _ _)))).
  2: refine (pd_mult (h D1 D2) (fun x y z => h D2 D1 x y z * h D3 D3 x y z - h D2 D3 x y z * h D3 D1 x y z) k X Y Z _ _ (H _ _) (pd_minus (fun x y z => h D2 D1 x y z * h D3 D3 x y z) (fun x y z => h D2 D3 x y z * h D3 D1 x y z) k X Y Z _ _ (pd_mult _ _ _ _ _ _ _ _ (H _ _) (H _ _)) (pd_mult _ _ _ _ _ _ _ _ (H _ _) (H _ _)))).
  2: refine (pd_mult (h D1 D3) (fun x y z => h D2 D1 x y z * h D3 D2 x y z - h D2 D2 x y z * h D3 D1 x y z) k X Y Z _ _ (H _ _) (pd_minus (fun x y z => h D2 D1 x y z * h D3 D2 x y z) (fun x y z => h D2 D2 x y z * h D3 D1 x y z) k X Y Z _ _ (pd_mult _ _ _ _ _ _ _ _ (H _ _) (H _ _)) (pd_mult _ _ _ _ _ _ _ _ (H _ _) (H _ _)))).
  unfold SS, S3, adj. cbn [suc]. ring.
Qed.
Theorem C86_connection a e X Y Z h hi dh : 0 < det (sym (bv_g a)) -> metric_near e X Y Z h hi dh ->
  (forall i j, h i j X Y Z = sym (bi_gt a) i j) -> (forall k i j, dh k i j = bv_dg a (3 * s6 i j + n3 k)) ->
  forall i, (exists d, (forall j, pd (hi i j) j X Y Z (d j)) /\ bi_G a (n3 i) = - S3 d) /\
    ((forall x y z, near e X Y Z x y z -> det (fun i j => h i j x y z) = 1) -> bi_G a (n3 i) = SS (fun j k => hi j k X Y Z * christoffel (fun i j => hi i j X Y Z) dh i j k)).
Proof.
  intros Hd (He & Hn & Hpd) Hv Hdv. destruct (Hn X Y Z (near0 e X Y Z He)) as [Sy Iv]. pose proof (fun i j => inv_sym _ _ i j Sy Iv) as SI. cbv beta in SI.
  assert (Gi : forall i j, hi i j X Y Z = adj (sym (bi_gt a)) i j).
  { intros i j. pose proof (inv_adj _ _ i j Iv) as Q. cbv beta in Q. rewrite Q. replace (det3 (fun i j => h i j X Y Z)) with (det (sym (bi_gt a))) by (unfold det, det3; now rewrite <- !Hv).
    rewrite (proj1 (init_conformal a Hd)), Rinv_1, Rmult_1_r. unfold adj. now rewrite <- !Hv. }
  assert (D1' : bi_detgtinv_2 a = 1).
  { unfold bi_detgtinv_2. match goal with |- 1 / ?x = 1 => assert (E : x = 1) by (rewrite <- (proj1 (init_conformal a Hd)); unfold det, sym, pow2; cbn [s6 bi_gt]; ring); rewrite E end. field. }
  set (gi := fun i j => hi i j X Y Z).
  assert (GE : forall i, bi_G a (n3 i) = S3 (fun m => gi i m * SS (fun j n => gi j n * dh j m n))).
  { intros i. assert (E11 : bi_gtinv11_2 a = gi D1 D1) by (unfold bi_gtinv11_2; rewrite D1'; unfold gi; rewrite Gi; unfold adj, sym, pow2; cbn [suc s6 bi_gt]; ring).
    assert (E12 : bi_gtinv12_2 a = gi D1 D2) by (unfold bi_gtinv12_2; rewrite D1'; unfold gi; rewrite Gi; unfold adj, sym, pow2; cbn [suc s6 bi_gt]; ring).
    assert (E13 : bi_gtinv13_2 a = gi D1 D3) by (unfold bi_gtinv13_2; rewrite D1'; unfold gi; rewrite Gi; unfold adj, sym, pow2; cbn [suc s6 bi_gt]; ring).
    assert (E22 : bi_gtinv22_2 a = gi D2 D2) by (unfold bi_gtinv22_2; rewrite D1'; unfold gi; rewrite Gi; unfold adj, sym, pow2; cbn [suc s6 bi_gt]; ring).
    assert (E23 : bi_gtinv23_2 a = gi D2 D3) by (unfold bi_gtinv23_2; rewrite D1'; unfold gi; rewrite Gi; unfold adj, sym, pow2; cbn [suc s6 bi_gt]; ring).
    assert (E33 : bi_gtinv33_2 a = gi D3 D3) by (unfold bi_gtinv33_2; rewrite D1'; unfold gi; rewrite Gi; unfold adj, sym, pow2; cbn [suc s6 bi_gt]; ring).
    assert (S21 : gi D2 D1 = gi D1 D2) by apply SI. assert (S31 : gi D3 D1 = gi D1 D3) by apply SI. assert (S32 : gi D3 D2 = gi D2 D3) by apply SI.
    unfold SS, S3. rewrite !Hdv. destruct i; cbn [n3 bi_G s6 Nat.mul Nat.add]; unfold bi_G1, bi_G2, bi_G3, bi_Gtdown1, bi_Gtdown2, bi_Gtdown3; rewrite E11, E12, E13, E22, E23, E33; unfold bi_dgt111, bi_dgt112, bi_dgt113, bi_dgt121, bi_dgt122, bi_dgt123, bi_dgt131, bi_dgt132, bi_dgt133, bi_dgt221, bi_dgt222, bi_dgt223, bi_dgt231, bi_dgt232, bi_dgt233, bi_dgt331, bi_dgt332, bi_dgt333; rewrite ?S21, ?S31, ?S32; ring. }
  assert (dhs : forall k i j, dh k i j = dh k j i) by (intros k i j; rewrite !Hdv; destruct i, j; reflexivity).
  intros i. split.
  - exists (fun j => - SS (fun c d => gi i c * gi j d * dh j c d)). split.
    + intros j. apply (pd_hi h hi j X Y Z (dh j) e He); [|auto]. intros x y z N. destruct (Hn x y z N). split; auto.
    + rewrite GE. unfold SS, S3. assert (S21 : gi D2 D1 = gi D1 D2) by apply SI. assert (S31 : gi D3 D1 = gi D1 D3) by apply SI. assert (S32 : gi D3 D2 = gi D2 D3) by apply SI. rewrite S21, S31, S32. ring.
  - intros HD. rewrite GE.
    assert (Z0 : forall k, SS (fun i j => gi i j * dh k i j) = 0).
    { intros k. assert (P0 : pd (fun x y z => det (fun i j => h i j x y z)) k X Y Z 0) by (apply (pd_ext (fun _ _ _ => 1) _ k X Y Z 0 e He); [intros x y z N; now rewrite HD|apply pd_const]).
      pose proof (pd_det h k X Y Z (dh k) (Hpd k)) as P1. rewrite <- (pd_unique _ _ _ _ _ _ _ P1 P0). unfold SS, S3, gi. rewrite !Gi.
      assert (As : forall i j, adj (fun i j => h i j X Y Z) i j = adj (sym (bi_gt a)) i j) by (intros; unfold adj; now rewrite !Hv). rewrite !As.
      assert (Sa : forall i j, adj (sym (bi_gt a)) i j = adj (sym (bi_gt a)) j i) by (intros; rewrite <- !Gi; apply SI). rewrite (Sa D2 D1), (Sa D3 D1), (Sa D3 D2). ring. }
    unfold christoffel. fold gi. transitivity (S3 (fun l => gi i l * (SS (fun j k => gi j k * dh j l k) - 1 / 2 * SS (fun j k => gi j k * dh l j k)))).
    + assert (Q : forall l, SS (fun j k => gi j k * dh l j k) = 0) by exact Z0. assert (W : forall F, S3 (fun l => gi i l * (F l - 1 / 2 * SS (fun j k => gi j k * dh l j k))) = S3 (fun l => gi i l * F l)) by (intros F; unfold S3 at 1 2; rewrite !Q; ring). symmetry. apply W.
    + assert (S21 : gi D2 D1 = gi D1 D2) by apply SI. assert (S31 : gi D3 D1 = gi D1 D3) by apply SI. assert (S32 : gi D3 D2 = gi D2 D3) by apply SI. unfold SS, S3, gi in *. rewrite ?S21, ?S31, ?S32.
      rewrite ?(dhs D1 D2 D1), ?(dhs D1 D3 D1), ?(dhs D1 D3 D2), ?(dhs D2 D2 D1), ?(dhs D2 D3 D1), ?(dhs D2 D3 D2), ?(dhs D3 D2 D1), ?(dhs D3 D3 D1), ?(dhs D3 D3 D2). field.
Qed.
(** ** utility.c *)
Theorem C86_utility (psi : R) (g K : nat -> R) : det (sym g) <> 0 -> psi <> 0 ->
  ut_detg g = det (sym g) /\ inverse (sym g) (sym (ut_invg g)) /\
  (forall hi, inverse (fun i j => psi ^ 4 * sym g i j) hi -> ut_K_initial psi g K = trace hi (sym K)) /\
  forall dp ddp s, let '(psi', g', dp', ddp') := ut_undo psi g dp ddp s in (forall i j, psi' ^ 4 * sym g' i j = psi ^ 4 * sym g i j) /\ (forall h, derivable_pt_lim (fun _ => psi') h (if s then dp' 0%nat * psi' else 0)).
Proof.
  intros N Np. assert (D : ut_detg g = det (sym g)) by (unfold ut_detg, ut_i11, ut_i12, ut_i13, det, sym; cbn [s6]; ring).
  assert (I : inverse (sym g) (sym (ut_invg g))).
  { intros i j. rewrite <- (adj_inverse g N i j). unfold S3. assert (E : forall i k, sym (ut_invg g) i k = adj (sym g) i k / det (sym g)). { intros x y. rewrite <- D. unfold sym, ut_invg, adj. destruct x, y; cbn [s6 suc]; unfold ut_i11, ut_i12, ut_i13, ut_i22, ut_i23, ut_i33, Rdiv; ring. } now rewrite !E. }
  split; [exact D|]. split; [exact I|]. split.
  - intros hi H. pose proof (pow_nonzero psi 4 Np) as N4.
    assert (U : forall i j, hi i j = / psi ^ 4 * sym (ut_invg g) i j).
    { intros i j. apply (inv_unique _ _ (fun i j => / psi ^ 4 * sym (ut_invg g) i j) i j H). intros x y. rewrite <- (I x y). unfold S3. field. auto. }
    unfold trace, SS, S3. rewrite !U. unfold ut_K_initial, sym. cbn [s6]. ring.
  - intros dp ddp s. unfold ut_undo. split; [intros; unfold sym; ring|]. intros h. destruct s; [rewrite Rmult_0_l|]; apply derivable_pt_lim_const.
Qed.
(** ** C87: BSSN_AlgConstr *)
Section A.
Variable a : ac_in.
Hypothesis Hd : 0 < det (sym (av_g a)).
Let detE : ac_detg a = det (sym (av_g a)).
Proof. unfold ac_detg, det, sym, pow2. cbn [s6]. unfold ac_g11, ac_g12, ac_g13, ac_g22, ac_g23, ac_g33. ring. Qed.
Let c := if ac_norm a then ac_aux a else 1.
Let cE : 0 < c /\ (ac_norm a = true -> c * c * c * det (sym (av_g a)) = 1).
Proof. unfold c, ac_aux, ac_oothree. rewrite detE. pose proof (cube_root _ Hd) as [P Q]. destruct (ac_norm a); split; try lra; auto; intros; discriminate. Qed.
Let gE n : (n < 6)%nat -> ac_gout a n = c * av_g a n.
Proof. unfold c. six_cases; cbn [ac_gout]; unfold ac_g11_3, ac_g12_3, ac_g13_3, ac_g22_3, ac_g23_3, ac_g33_3; destruct (ac_norm a); try reflexivity; unfold ac_g11, ac_g12, ac_g13, ac_g22, ac_g23, ac_g33; ring. Qed.
Let gs i j : sym (ac_gout a) i j = c * sym (av_g a) i j.
Proof. unfold sym. apply gE. destruct i, j; cbn; lia. Qed.
Let detg : det (sym (ac_gout a)) = c * c * c * det (sym (av_g a)).
Proof. transitivity (det (fun i j => c * sym (av_g a) i j)); [unfold det; now rewrite !gs|apply det_scale]. Qed.
Let posg : 0 < det (sym (ac_gout a)).
Proof. rewrite detg. destruct cE. apply Rmult_lt_0_compat; [|auto]. apply Rmult_lt_0_compat; [nra|auto]. Qed.
Let det3' : ac_detg_3 a = det (sym (ac_gout a)).
Proof.
  unfold ac_detg_3, ac_detg_2, ac_detg, det, sym, pow2. cbn [s6 ac_gout]. unfold ac_g11_3, ac_g12_3, ac_g13_3, ac_g22_3, ac_g23_3, ac_g33_3. destruct (ac_norm a); ring.
Qed.
Let trE : ac_trA a = SS (fun i j => adj (sym (ac_gout a)) i j * sym (av_A a) i j) / det (sym (ac_gout a)).
Proof.
  unfold ac_trA, ac_detginv. rewrite det3'. unfold Rdiv. rewrite Rmult_1_l, Rmult_comm. f_equal. unfold SS, S3, adj, sym, pow2. cbn [suc s6 ac_gout]. unfold ac_A11, ac_A12, ac_A13, ac_A22, ac_A23, ac_A33. ring.
Qed.
Let AE n : (n < 6)%nat -> ac_Aout a n = av_A a n - (if ac_sub a then 1 / 3 * ac_trA a else 0) * ac_gout a n.
Proof. six_cases; cbn [ac_Aout ac_gout]; unfold ac_A11_3, ac_A12_3, ac_A13_3, ac_A22_3, ac_A23_3, ac_A33_3, ac_A11_2, ac_A12_2, ac_A13_2, ac_A22_2, ac_A23_2, ac_A33_2, ac_aux_2, ac_oothree; destruct (ac_sub a); unfold ac_A11, ac_A12, ac_A13, ac_A22, ac_A23, ac_A33; ring. Qed.
Lemma ac_main : conformal (sym (av_g a)) (sym (ac_gout a)) /\ (ac_norm a = true -> det (sym (ac_gout a)) = 1) /\ (ac_norm a = false -> forall n, (n < 6)%nat -> ac_gout a n = av_g a n) /\
  (ac_sub a = true -> tracefree (sym (ac_gout a)) (sym (ac_Aout a))) /\ (exists t, forall n, (n < 6)%nat -> ac_Aout a n = av_A a n + t * ac_gout a n) /\ (ac_sub a = false -> forall n, (n < 6)%nat -> ac_Aout a n = av_A a n).
Proof.
  destruct cE as [C1 C2]. split; [|split; [|split; [|split; [|split]]]].
  - exists (/ c). split; [now apply Rinv_0_lt_compat|]. intros. rewrite gs. field. lra.
  - intros H. rewrite detg. auto.
  - intros H n Hn. rewrite gE by auto. unfold c. rewrite H. ring.
  - intros H. apply tracefree_iff; [lra|]. assert (E : forall i j, sym (ac_Aout a) i j = sym (av_A a) i j - 1 / 3 * ac_trA a * sym (ac_gout a) i j) by (intros i j; unfold sym; rewrite AE by (destruct i, j; cbn; lia); rewrite H; ring).
    transitivity (SS (fun i j => adj (sym (ac_gout a)) i j * sym (av_A a) i j) - ac_trA a * det (sym (ac_gout a))); [|rewrite trE; field; lra]. unfold SS, S3. rewrite !E. unfold det, adj, sym. cbn [suc s6]. field.
  - exists (- (if ac_sub a then 1 / 3 * ac_trA a else 0)). intros n Hn. rewrite AE by auto. ring.
  - intros H n Hn. rewrite AE by auto. rewrite H. ring.
Qed.
Lemma ac_fix : det (sym (av_g a)) = 1 -> tracefree (sym (av_g a)) (sym (av_A a)) -> forall n, (n < 6)%nat -> ac_gout a n = av_g a n /\ ac_Aout a n = av_A a n.
Proof.
  intros H1 HT. assert (C1 : c = 1). { unfold c, ac_aux. rewrite detE, H1. unfold Rpower. rewrite ln_1, Rmult_0_r, exp_0. now destruct (ac_norm a). }
  assert (G : forall m, (m < 6)%nat -> ac_gout a m = av_g a m) by (intros m Hm; rewrite gE, C1 by auto; ring).
  assert (Gs : forall i j, sym (ac_gout a) i j = sym (av_g a) i j) by (intros i j; unfold sym; apply G; destruct i, j; cbn; lia).
  assert (T0 : ac_trA a = 0). { rewrite trE. apply tracefree_iff in HT; [|rewrite H1; lra]. unfold SS, S3, adj in *. rewrite !Gs. rewrite HT. unfold Rdiv. ring. }
  intros n Hn. split; [auto|]. rewrite AE by auto. rewrite T0. destruct (ac_sub a); ring.
Qed.
End A.
Theorem C87_enforce a : 0 < det (sym (av_g a)) ->
  conformal (sym (av_g a)) (sym (ac_gout a)) /\ (ac_norm a = true -> det (sym (ac_gout a)) = 1) /\ (ac_norm a = false -> forall n, (n < 6)%nat -> ac_gout a n = av_g a n) /\
  (ac_sub a = true -> tracefree (sym (ac_gout a)) (sym (ac_Aout a))) /\ (exists t, forall n, (n < 6)%nat -> ac_Aout a n = av_A a n + t * ac_gout a n) /\ (ac_sub a = false -> forall n, (n < 6)%nat -> ac_Aout a n = av_A a n).
Proof. apply ac_main. Qed.
(** nothing changes if the constraints hold already; so doing it twice is the same as doing it once *)
Theorem C87_unchanged a : det (sym (av_g a)) = 1 -> tracefree (sym (av_g a)) (sym (av_A a)) -> forall n, (n < 6)%nat -> ac_gout a n = av_g a n /\ ac_Aout a n = av_A a n.
Proof. intros H. apply ac_fix; [rewrite H; lra|exact H]. Qed.
Theorem C87_idempotent a b : 0 < det (sym (av_g a)) -> ac_norm a = true -> ac_sub a = true -> av_g b = ac_gout a -> av_A b = ac_Aout a -> forall n, (n < 6)%nat -> ac_gout b n = ac_gout a n /\ ac_Aout b n = ac_Aout a n.
Proof.
  intros H N S Eg EA n Hn. destruct (ac_main a H) as (_ & M1 & _ & M2 & _). rewrite <- Eg, <- EA. apply C87_unchanged; auto; rewrite Eg; [auto|rewrite EA; auto].
Qed.
(** a flat metric with some K meets the hypotheses; the determinant is 8 *)
Definition g86 (n : nat) : R := match n with O | 3%nat | 5%nat => 2 | _ => 0 end.
Example C86_ex : 0 < det (sym g86) /\ det (sym g86) <> 1 /\ det (sym g86) <> 0. Proof. unfold det, sym, g86. cbn [s6]. lra. Qed.
(** a metric of determinant 1 with derivative that is not zero: diag (1+x)^2, (1+x)^-2, 1 near 0 *)
Definition h86 (i j : d3) : fn3 := fun x _ _ => match i, j with D1, D1 => (1 + x) * (1 + x) | D2, D2 => / ((1 + x) * (1 + x)) | D3, D3 => 1 | _, _ => 0 end.
Definition hi86 (i j : d3) : fn3 := fun x _ _ => match i, j with D1, D1 => / ((1 + x) * (1 + x)) | D2, D2 => (1 + x) * (1 + x) | D3, D3 => 1 | _, _ => 0 end.
Definition dh86 (k i j : d3) : R := match k, i, j with D1, D1, D1 => 2 | D1, D2, D2 => - 2 | _, _, _ => 0 end.
Definition i86 : bi_in := MkBi (fun n => match n with O | 3%nat | 5%nat => 1 | _ => 0 end) (fun _ => 0) 1 1 0 (fun n => match n with O => 2 | 9%nat => - 2 | _ => 0 end).
Example C86_ex2 : 0 < det (sym (bv_g i86)) /\ metric_near 1 0 0 0 h86 hi86 dh86 /\ (forall i j, h86 i j 0 0 0 = sym (bi_gt i86) i j) /\ (forall k i j, dh86 k i j = bv_dg i86 (3 * s6 i j + n3 k)) /\
  (forall x y z, near 1 0 0 0 x y z -> det (fun i j => h86 i j x y z) = 1) /\ bi_G i86 0 = 2.
Proof.
  assert (P1 : bi_p i86 = 1). { unfold bi_p, Rpower. replace (bi_detgb i86) with 1; [rewrite ln_1, Rmult_0_r; apply exp_0|]. unfold bi_detgb, pow2, bi_gb11, bi_gb12, bi_gb13, bi_gb22, bi_gb23, bi_gb33. cbn. ring. }
  assert (G : forall n, (n < 6)%nat -> bi_gt i86 n = bv_g i86 n) by (intros n; six_cases; cbn [bi_gt]; unfold bi_gt11, bi_gt12, bi_gt13, bi_gt22, bi_gt23, bi_gt33; rewrite P1, Rmult_1_l; reflexivity).
  assert (NZ : forall x, Rabs (x - 0) < 1 -> 1 + x <> 0) by (intros x H E; rewrite Rabs_left in H; lra).
  split; [unfold det, sym; cbn; lra|]. split; [|split; [|split; [|split]]].
  - split; [lra|]. split.
    + intros x y z (Nx & _). specialize (NZ x Nx). split; [intros i j; destruct i, j; reflexivity|]. intros i j. unfold S3, h86, hi86. destruct i, j; cbn [delta]; try ring; field; auto.
    + intros k i j. destruct k, i, j; cbn [dh86]; unfold h86; try apply pd_const; unfold pd; cbn; try apply derivable_pt_lim_const.
      * replace 2 with ((0 + 1) * (1 + 0) + (1 + 0) * (0 + 1)) by ring. apply (derivable_pt_lim_mult (fun t => 1 + t) (fun t => 1 + t)); apply (derivable_pt_lim_plus (fun _ => 1) (fun t => t)); first [apply derivable_pt_lim_const|apply derivable_pt_lim_id].
      * replace (- 2) with ((0 * ((1 + 0) * (1 + 0)) - ((0 + 1) * (1 + 0) + (1 + 0) * (0 + 1)) * 1) / Rsqr ((1 + 0) * (1 + 0))) by (unfold Rsqr; field).
        apply (dl_ext (fun t => 1 / ((1 + t) * (1 + t))) _ _ _ 1); [lra|intros t _; unfold Rdiv; ring|].
        apply (derivable_pt_lim_div (fun _ => 1) (fun t => (1 + t) * (1 + t))); [apply derivable_pt_lim_const| |lra].
        apply (derivable_pt_lim_mult (fun t => 1 + t) (fun t => 1 + t)); apply (derivable_pt_lim_plus (fun _ => 1) (fun t => t)); first [apply derivable_pt_lim_const|apply derivable_pt_lim_id].
  - intros i j. unfold sym. rewrite G by (destruct i, j; cbn; lia). unfold h86. destruct i, j; cbn; field.
  - intros k i j. destruct k, i, j; reflexivity.
  - intros x y z (Nx & _). specialize (NZ x Nx). unfold det, h86. field. auto.
  - cbn [bi_G]. unfold bi_G1, bi_Gtdown1, bi_Gtdown2, bi_Gtdown3, bi_gtinv11_2, bi_gtinv12_2, bi_gtinv13_2, bi_gtinv22_2, bi_gtinv23_2, bi_gtinv33_2, bi_detgtinv_2, pow2.
    change (bi_gt11 i86) with (bi_gt i86 0). change (bi_gt12 i86) with (bi_gt i86 1). change (bi_gt13 i86) with (bi_gt i86 2). change (bi_gt22 i86) with (bi_gt i86 3). change (bi_gt23 i86) with (bi_gt i86 4). change (bi_gt33 i86) with (bi_gt i86 5). rewrite !G by lia.
    unfold bi_dgt111, bi_dgt112, bi_dgt113, bi_dgt121, bi_dgt122, bi_dgt123, bi_dgt131, bi_dgt132, bi_dgt133, bi_dgt221, bi_dgt222, bi_dgt223, bi_dgt231, bi_dgt232, bi_dgt233, bi_dgt331, bi_dgt332, bi_dgt333. cbn. field.
Qed.
Print Assumptions C86_to_bssn.
Print Assumptions C86_round_trip.
Print Assumptions C86_round_trip2.
Print Assumptions C86_connection.
Print Assumptions C86_utility.
Print Assumptions C87_enforce.
Print Assumptions C87_idempotent.
