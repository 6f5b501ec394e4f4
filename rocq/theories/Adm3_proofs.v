(** What the constraint code computes from the inverse metric, its derivatives, K, and the derivatives of K and alpha at one point. *)
From Verif Require Import Rutil Coord_model Coord_spec Adm_model Adm_spec Adm_proofs Adm2_proofs Adm_props.
From Coq Require Import Lia.
Local Open Scope R_scope.
Section EV.
Variables (ad : adm_in) (X Y Z e : R) (F : geometry) (hi : d3 -> d3 -> fn3) (dh : d3 -> d3 -> d3 -> fn3).
Hypothesis ST : setting ad X Y Z e F hi dh.
Variables (h : d3 -> d3 -> R) (D : d3 -> d3 -> d3 -> R) (DD : d3 -> d3 -> d3 -> d3 -> R) (K : d3 -> d3 -> R) (DK : d3 -> d3 -> d3 -> R) (da : d3 -> R) (dda : d3 -> d3 -> R).
Hypothesis (Hg : forall i j, hi i j X Y Z = h i j) (Hd : forall k i j, dh k i j X Y Z = D k i j) (Hdd : forall k m i j, pd (dh k i j) m X Y Z (DD k m i j))
  (HK : forall i j, FK F i j X Y Z = K i j) (HdK : forall k i j, pd (FK F i j) k X Y Z (DK k i j)) (EA : forall k, dalpha F k X Y Z = da k) (EAA : forall k m, pd (dalpha F k) m X Y Z (dda k m)).
Lemma ev_g i j : v_ginv ad i j = h i j. Proof. now rewrite <- (hi_X _ _ _ _ _ _ _ _ ST). Qed.
Lemma ev_d k i j : v_dg ad k i j = D k i j. Proof. now rewrite <- (dh_X _ _ _ _ _ _ _ _ ST). Qed.
Lemma ev_dd k m i j : v_ddg ad k m i j = DD k m i j. Proof. eapply pd_unique; [apply (ddh_X _ _ _ _ _ _ _ _ ST)|apply Hdd]. Qed.
Lemma ev_Ki i j : i_K ad i j = K i j. Proof. rewrite <- HK. symmetry. eapply K_X; eauto. Qed.
Lemma ev_dK k i j : i_dK ad k i j = DK k i j. Proof. eapply pd_unique; [apply (HA _ _ _ _ _ _ _ _ ST)|apply HdK]. Qed.
Lemma ev_da k : i_dalp ad k = da k. Proof. rewrite <- EA. apply (HA _ _ _ _ _ _ _ _ ST). Qed.
Lemma ev_dda k m : i_ddalp ad k m = dda k m. Proof. eapply pd_unique; [apply (HA _ _ _ _ _ _ _ _ ST)|apply EAA]. Qed.
Lemma ev_ga i j k : v_ga ad i j k = christoffel h D i j k.
Proof. rewrite <- (G_X _ _ _ _ _ _ _ _ ST). unfold Gam, christoffel, S3. now rewrite !Hg, !Hd. Qed.
Lemma ev_tr T T' : (forall i j, T i j = T' i j) -> trace (v_ginv ad) T = trace h T'.
Proof. intros E. unfold trace, SS, S3. now rewrite !ev_g, !E. Qed.
Lemma ev_ric i j : v_R ad i j = ric_form h D DD i j.
Proof.
  assert (S1 : forall m n, v_ginv ad m n = v_ginv ad n m) by (intros m n; destruct m, n; reflexivity).
  assert (S2 : forall k m n, v_dg ad k m n = v_dg ad k n m) by (intros k m n; destruct m, n; reflexivity). assert (S4 : forall k t m n, v_ddg ad k t m n = v_ddg ad k t n m) by (intros k t m n; destruct m, n; reflexivity). assert (S5 : forall k t m n, v_ddg ad k t m n = v_ddg ad t k m n) by (intros k t m n; destruct k, t; reflexivity).
  assert (RI : forall i j, (n3 j <= n3 i)%nat -> v_R ad i j = ric_form (v_ginv ad) (v_dg ad) (v_ddg ad) i j). { intros m n L. rewrite (R_i ad m n L). unfold ric_form, SS. apply S3_ext; intros u. apply S3_ext; intros v. f_equal. f_equal. apply S3_ext; intros t. rewrite !gd_i, !ga_i. unfold christoffel, S3. rewrite !gd_i. rewrite !(S2 u _ m), !(S2 n _ m), !(S2 m _ u), !(S2 m _ n). field. }
  transitivity (ric_form (v_ginv ad) (v_dg ad) (v_ddg ad) i j). { destruct (Nat.le_ge_cases (n3 j) (n3 i)) as [L|L]; [now apply RI|]. rewrite ric_form_sym; auto. rewrite <- RI by auto. destruct i, j; reflexivity. }
  unfold ric_form, christoffel, SS, S3. rewrite !ev_g, !ev_d, !ev_dd. reflexivity.
Qed.
Lemma ev_R : adm_R ad = trace h (ric_form h D DD). Proof. rewrite Rs_i. apply ev_tr, ev_ric. Qed.
Lemma ev_K : adm_K ad = trace h K. Proof. rewrite K_s. apply ev_tr, ev_Ki. Qed.
Lemma ev_KK : adm_KudKud ad = square h K. Proof. rewrite KK_s. unfold square, SS, S3. now rewrite !ev_g, !ev_Ki. Qed.
Lemma ev_cov k i j : cov (v_ga ad) (i_K ad) (i_dK ad) k i j = cov (christoffel h D) K DK k i j.
Proof. unfold cov, S3. now rewrite !ev_ga, !ev_Ki, !ev_dK. Qed.
Hypothesis (N16 : a_null ad 16 = true) (N17 : a_null ad 17 = true) (N20 : a_null ad 20 = true).
Lemma ev_ham : adm_ham ad = trace h (ric_form h D DD) + trace h K * trace h K - square h K.
Proof. unfold adm_ham, pow2, adm_hamrhs_3. rewrite N16. unfold adm_hamrhs. rewrite ev_R, ev_K, ev_KK. ring. Qed.
Lemma ev_mom i : v_mom ad i = momentum h (cov (christoffel h D) K DK) i.
Proof.
  rewrite (mom_X _ _ _ _ _ _ _ _ ST). assert (MR : momrhs ad i = 0) by (destruct i; cbn [momrhs]; unfold adm_momrhs1_3, adm_momrhs2_3, adm_momrhs3_3; now rewrite N17). rewrite MR, Rminus_0_r. unfold momentum, SS, S3. now rewrite !ev_g, !ev_cov.
Qed.
Lemma ev_dtr : adm_dtrKdt ad = S3 (fun k => a_u ad (13 + n3 k) * trace h (fun i j => cov (christoffel h D) K DK k i j)) - trace h (hessian (christoffel h D) da dda) + a_u ad 12 * (trace h (ric_form h D DD) + trace h K * trace h K).
Proof.
  unfold adm_dtrKdt, adm_Sminus3rho_3, pow2. rewrite N20. change (adm_Sminus3rho ad) with 0. change (adm_alpha ad) with (a_u ad 12%nat). rewrite ev_R, ev_K, trcdda_i, bdtrK_i.
  rewrite (ev_tr (v_cdda ad) (hessian (christoffel h D) da dda)) by (intros i j; rewrite cdda_i; unfold hessian, S3; now rewrite !ev_ga, !ev_da, !ev_dda).
  rewrite (S3_ext (fun k => a_u ad (13 + n3 k) * v_dtrK ad k) (fun k => a_u ad (13 + n3 k) * trace h (fun i j => cov (christoffel h D) K DK k i j))) by (intros k; rewrite dtrK_i; f_equal; apply ev_tr; intros i j; now rewrite cK_i, ev_cov).
  ring.
Qed.
End EV.
