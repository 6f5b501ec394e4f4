(** C120, C121: the rates of change computed for the scalar field on a Kerr black hole are those of a solution of the wave equation. *)
From Verif Require Import Rutil Coord_model Coord_spec Adm_model Adm_spec Adm_proofs Adm2_proofs Adm_props Bh_model Bh_proofs Bh_props Ks_model Ks_spec Ks_proofs Frame_proofs Ks2_proofs Ks3_proofs Ks4_proofs Ks_props Sok_model Sok_spec Sok_props Sok3_model Sok3_props Sokr_model Sokr_proofs.
From Coq Require Import Lia.
Local Open Scope R_scope.
(** ** specification *)
(** the tables of the black hole at a point *)
Definition hole3 (M Sx Sy Sz x y z : R) : slice := Slice (k3_alpha M Sx Sy Sz x y z) (k3_beta M Sx Sy Sz x y z) (k3_gup M Sx Sy Sz x y z) (k3_TrK M Sx Sy Sz x y z) (k3_G M Sx Sy Sz x y z) (k3_dalpha M Sx Sy Sz x y z) (k3_dbeta M Sx Sy Sz x y z).
Definition hole4 (M Sx Sy Sz x y z : R) : metric4 := Metric4 (kerr_gup M Sx Sy Sz x y z) (kerr_G M Sx Sy Sz x y z).
(** the wave operator  g^ab (d_a d_b u - Gamma^c_ab d_c u)  of the Kerr metric; C116 shows that the tables are the inverse metric and its contracted Christoffel symbols *)
Definition box4 (M Sx Sy Sz x y z : R) (du : d4 -> R) (ddu : d4 -> d4 -> R) : R :=
  S4 (fun m => S4 (fun n => kerr_gup M Sx Sy Sz x y z (n10 m n) * ddu m n)) - S4 (fun m => kerr_G M Sx Sy Sz x y z (n4 m) * du m).
Definition grad4 (ut : R) (ux : d3 -> R) (m : d4) : R := match m with Tm => ut | Sp i => ux i end.
Definition hess4 (utt : R) (utx : d3 -> R) (uxx : d3 -> d3 -> R) (m n : d4) : R := match m, n with Tm, Tm => utt | Tm, Sp i | Sp i, Tm => utx i | Sp i, Sp j => uxx i j end.
(** lists of components *)
Definition v3 (v : d3 -> R) (n : nat) : R := match n with 0%nat => v D1 | 1%nat => v D2 | 2%nat => v D3 | _ => R0 end.
Definition v9 (v : d3 -> d3 -> R) (n : nat) : R := match n with 0%nat => v D1 D1 | 1%nat => v D1 D2 | 2%nat => v D1 D3 | 3%nat => v D2 D1 | 4%nat => v D2 D2 | 5%nat => v D2 D3 | 6%nat => v D3 D1 | 7%nat => v D3 D2 | 8%nat => v D3 D3 | _ => R0 end.
Definition v6 (v : d3 -> d3 -> R) (n : nat) : R := match n with 0%nat => v D1 D1 | 1%nat => v D1 D2 | 2%nat => v D1 D3 | 3%nat => v D2 D2 | 4%nat => v D2 D3 | 5%nat => v D3 D3 | _ => R0 end.
(** the mixed derivatives psixy, psixz, psiyx, psiyz, psizx, psizy *)
Definition vmix (v : d3 -> d3 -> R) (n : nat) : R := match n with 0%nat => v D1 D2 | 1%nat => v D1 D3 | 2%nat => v D2 D1 | 3%nat => v D2 D3 | 4%nat => v D3 D1 | 5%nat => v D3 D2 | _ => R0 end.
(** minus the derivative along the unit normal of the slice *)
Definition normal (M Sx Sy Sz : R) (ut : fn3) (ux : d3 -> fn3) : fn3 := fun x y z => (S3 (fun i => k3_beta M Sx Sy Sz x y z (n3 i) * ux i x y z) - ut x y z) / k3_alpha M Sx Sy Sz x y z.
(** ** the contracted connections of the space-time and of its slices *)
Section PT.
Variables (M Sx Sy Sz a b c X Y Z : R).
Hypothesis HM : 0 <= M.
Hypothesis SP : spin_per_mass M Sx Sy Sz a b c.
Hypothesis D : outside_disc a b c X Y Z.
Notation k f := (f M Sx Sy Sz X Y Z).
Notation H := (k sk_H). Notation l := (k l_sk). Notation h := (k dH_sk). Notation dl := (k dl_sk).
Let OD : off_disc a b c X Y Z := disc_eq _ _ _ _ _ _ D.
Lemma HP : 0 < 1 + 2 * H. Proof. exact (H_pos M Sx Sy Sz a b c SP X Y Z HM OD). Qed.
Lemma al_pos : 0 < k k3_alpha.
Proof. rewrite alpha_H. unfold Rdiv. rewrite Rmult_1_l. apply Rinv_0_lt_compat, sqrt_lt_R0, HP. Qed.
Lemma al_sq : k k3_alpha * k k3_alpha = / (1 + 2 * H).
Proof. pose proof HP as P. rewrite alpha_H. rewrite <- (sqrt_sqrt (1 + 2 * H)) at 3 by lra. field. apply Rgt_not_eq, sqrt_lt_R0, P. Qed.
Lemma gup_a i j : k k3_gup (s6 i j) = a_gi H l i j.
Proof.
  pose proof (C117_spacetime M Sx Sy Sz a b c X Y Z HM SP D) as (_ & _ & _ & G). specialize (G i j). cbv beta in G. rewrite gup_sk, al_sq, !beta_H in G. cbn [eta Lu_sk] in G.
  unfold a_gi. pose proof HP as P. set (L1 := l i) in *. set (L2 := l j) in *. set (E := H) in *. set (u := k3_gup _ _ _ _ _ _ _ _) in *. set (dd := delta i j) in *.
  replace u with (dd - 2 * E * L1 * L2 + 2 * E * L1 / (1 + 2 * E) * (2 * E * L2 / (1 + 2 * E)) / / (1 + 2 * E)) by (rewrite G; ring). field. lra.
Qed.
Lemma da_a i : k k3_dalpha (n3 i) = a_da H h (k k3_alpha) i.
Proof. rewrite dalpha_H. unfold a_da. rewrite alpha_H. pose proof HP as P. assert (SQ : 0 < sqrt (1 + 2 * H)) by now apply sqrt_lt_R0. field. repeat split; try lra. intros Q. assert (E : sqrt (1 + 2 * H) * (1 + 2 * H) = 0) by lra. apply Rmult_integral in E. lra. Qed.
Lemma db_a i q : k k3_dbeta (3 * n3 i + n3 q)%nat = a_db H l h dl q i.
Proof. rewrite dbeta_H. unfold a_db. replace (1 + 4 * (H + H ^ 2)) with ((1 + 2 * H) * (1 + 2 * H)) by ring. reflexivity. Qed.
Lemma G4_t : k kerr_G 0%nat = a_Gt H l h dl.
Proof.
  change (k kerr_G 0%nat) with (k kerr_G (n4 Tm)). rewrite (C116_trace M Sx Sy Sz a b c X Y Z (k dgup_sk) SP D) with (m := Tm) by (intros; apply (pd4_gup _ _ _ _ _ _ _ SP X Y Z OD)).
  unfold S4, S3, dgup_sk, a_Gt, a_hl, a_th, S3. cbn [dH4 Lu_sk dL4]. ring.
Qed.
Lemma G4_s j : k kerr_G (n4 (Sp j)) = a_Gs H l h dl j.
Proof.
  rewrite (C116_trace M Sx Sy Sz a b c X Y Z (k dgup_sk) SP D) with (m := Sp j) by (intros; apply (pd4_gup _ _ _ _ _ _ _ SP X Y Z OD)).
  unfold S4, S3, dgup_sk, a_Gs, a_hl, a_th, a_D, S3. cbn [dH4 Lu_sk dL4]. ring.
Qed.
Lemma S3_ext' f g : (forall i, f i = g i) -> S3 f = S3 g. Proof. intros E. unfold S3. now rewrite !E. Qed.
Lemma G3_a j : k k3_G (n3 j) = a_G3 H l h dl j.
Proof.
  rewrite G_k3, <- G3_trace. unfold trace, SS. apply S3_ext'; intro i. apply S3_ext'; intro q. rewrite gup_a. f_equal. rewrite Gam_k3. unfold Adm_spec.christoffel.
  transitivity (S3 (fun p => 1 / 2 * (a_gi H l j p * (a_dg H l h dl i p q + a_dg H l h dl q p i - a_dg H l h dl p i q)))); [|unfold S3; ring].
  apply S3_ext'; intro p. rewrite gup_a. unfold dg3, a_dg. ring.
Qed.
Lemma TrK_a : k k3_TrK = trace (a_gi H l) (stationary_K (a_g H l) (k k3_alpha) (a_b H l) (a_dg H l h dl) (a_db H l h dl)).
Proof.
  destruct (C117_curvature M Sx Sy Sz a b c X Y Z (k dg3) HM SP D) as (EK & ET & _); [intros; now apply (pd_g3 M Sx Sy Sz a b c)|].
  rewrite TrK_k3. unfold trace, SS. apply S3_ext'; intro i. apply S3_ext'; intro j. rewrite gup_a, EK. f_equal. unfold stationary_K. f_equal. apply S3_ext'; intro q. rewrite beta_H, !g_H, !db_a. reflexivity.
Qed.
(** G^t and G^j of the space-time from the lapse, the shift, the trace of the curvature and G^j of the slice *)
Lemma split_t : k k3_TrK - S3 (fun i => k k3_beta (n3 i) * k k3_dalpha (n3 i)) / (k k3_alpha * k k3_alpha) + k k3_alpha * k kerr_G 0%nat = 0.
Proof.
  pose proof (Gt_split H l h dl (k k3_alpha) (null_sk _ _ _ _ _ _ _ SP X Y Z OD) (dnull_sk _ _ _ _ _ _ _ SP X Y Z OD)) as E.
  rewrite TrK_a, G4_t. etransitivity; [|apply E; [apply Rgt_not_eq, HP|apply Rgt_not_eq, al_pos|apply al_sq]]. do 2 f_equal. f_equal. apply S3_ext'; intro i. rewrite beta_H, da_a. reflexivity.
Qed.
Lemma split_s j : k k3_G (n3 j) - S3 (fun i => k k3_gup (s6 j i) * k k3_dalpha (n3 i)) / k k3_alpha + S3 (fun i => k k3_beta (n3 i) * k k3_dbeta (3 * n3 j + n3 i)%nat) / (k k3_alpha * k k3_alpha) - k kerr_G 0%nat * k k3_beta (n3 j) - k kerr_G (n4 (Sp j)) = 0.
Proof.
  pose proof (Gs_split H l h dl (k k3_alpha) (null_sk _ _ _ _ _ _ _ SP X Y Z OD) (dnull_sk _ _ _ _ _ _ _ SP X Y Z OD)) as E.
  rewrite G3_a, G4_t, G4_s. etransitivity; [|apply E; [apply Rgt_not_eq, HP|apply Rgt_not_eq, al_pos|apply al_sq]]. rewrite beta_H. unfold a_b. do 3 f_equal; [f_equal|]; f_equal; apply S3_ext'; intro i.
  - rewrite gup_a, da_a. reflexivity.
  - rewrite beta_H, db_a. reflexivity.
Qed.
(** the wave operator, with the rates of phi for the mixed derivatives *)
Lemma box_split (p pt : R) (dp phi : d3 -> R) (dphi : d3 -> d3 -> R) rho : (forall i j, dphi i j = dphi j i) ->
  let f := Field1 p (v3 dp) (v3 phi) (v3 phi) (v9 dphi) in let s := k hole3 in
  box4 M Sx Sy Sz X Y Z (grad4 (r1_psi s f) phi) (hess4 (S3 (fun i => k k3_beta (n3 i) * r1_phi s f (n3 i)) - k k3_alpha * pt) (fun i => r1_phi s f (n3 i)) dphi) = rho + (pt - r1_Pi s f rho) / k k3_alpha.
Proof.
  intros SY f s. pose proof al_pos as AP. pose proof split_t as ST. pose proof split_s as SS'. pose proof (C117_spacetime M Sx Sy Sz a b c X Y Z HM SP D) as (_ & Gtt & Gti & Gij). cbv beta zeta in *.
  unfold box4. 
  assert (Q : forall m n, k kerr_gup (n10 m n) = match m, n with Tm, Tm => - 1 / (k k3_alpha * k k3_alpha) | Tm, Sp i | Sp i, Tm => k k3_beta (n3 i) / (k k3_alpha * k k3_alpha) | Sp i, Sp j => k k3_gup (s6 i j) - k k3_beta (n3 i) * k k3_beta (n3 j) / (k k3_alpha * k k3_alpha) end).
  { intros [|i] [|j]; auto. replace (n10 (Sp i) Tm) with (n10 Tm (Sp i)) by (destruct i; reflexivity). auto. }
  assert (KT : k k3_TrK = S3 (fun i => k k3_beta (n3 i) * k k3_dalpha (n3 i)) / (k k3_alpha * k k3_alpha) - k k3_alpha * k kerr_G 0%nat) by lra.
  assert (KG : forall j, k kerr_G (n4 (Sp j)) = k k3_G (n3 j) - S3 (fun i => k k3_gup (s6 j i) * k k3_dalpha (n3 i)) / k k3_alpha + S3 (fun i => k k3_beta (n3 i) * k k3_dbeta (3 * n3 j + n3 i)%nat) / (k k3_alpha * k k3_alpha) - k kerr_G 0%nat * k k3_beta (n3 j)) by (intros j; specialize (SS' j); lra).
  clear ST SS' Gtt Gti Gij. unfold S4, S3 in *. rewrite !Q. rewrite !KG. cbn [n4 n3 s6 Nat.mul Nat.add] in *.
  unfold r1_psi, r1_phi, r1_Pi, beta_dPi, ag_dphi, aG_phi, g_phi_da, aKPi, beta_dpsi, b_dphi, phi_db, f, s, hole3.
  cbn [w_alpha w_beta w_gup w_TrK w_G w_dalpha w_dbeta w_Pi w_dPi w_dpsi w_phi w_dphi grad4 hess4 n3 v3 v9 Nat.mul Nat.add]. rewrite KT, (SY D2 D1), (SY D3 D1), (SY D3 D2).
  assert (A0 : k k3_alpha <> 0) by lra. clear - A0. revert A0. generalize (k k3_alpha) as al. intros al A0.
  repeat match goal with |- context [k3_beta ?u1 ?u2 ?u3 ?u4 ?u5 ?u6 ?u7 ?n] => generalize (k3_beta u1 u2 u3 u4 u5 u6 u7 n); intro end.
  repeat match goal with |- context [k3_gup ?u1 ?u2 ?u3 ?u4 ?u5 ?u6 ?u7 ?n] => generalize (k3_gup u1 u2 u3 u4 u5 u6 u7 n); intro end.
  repeat match goal with |- context [k3_G ?u1 ?u2 ?u3 ?u4 ?u5 ?u6 ?u7 ?n] => generalize (k3_G u1 u2 u3 u4 u5 u6 u7 n); intro end.
  repeat match goal with |- context [k3_dbeta ?u1 ?u2 ?u3 ?u4 ?u5 ?u6 ?u7 ?n] => generalize (k3_dbeta u1 u2 u3 u4 u5 u6 u7 n); intro end.
  repeat match goal with |- context [k3_dalpha ?u1 ?u2 ?u3 ?u4 ?u5 ?u6 ?u7 ?n] => generalize (k3_dalpha u1 u2 u3 u4 u5 u6 u7 n); intro end.
  generalize (k kerr_G 0%nat). intro. field. exact A0.
Qed.
End PT.

(** ** first order in space: the rates are those of a solution *)
(** u_t and u_x are the derivatives of a function u of time and space, Pi is minus its derivative along the normal.  The code gives u_t as the rate of psi and d_i u_t as the rate of phi_i, and its rate of Pi is the time derivative of Pi if and only if u solves the wave equation with source rho at the point. *)
Theorem C120_solution M Sx Sy Sz a b c t X Y Z (ut : R -> fn3) (ux : R -> d3 -> fn3) (utt : R) (utx : d3 -> R) (uxx : d3 -> d3 -> R) (dPi : d3 -> R) (rho : R) : 0 <= M -> spin_per_mass M Sx Sy Sz a b c -> outside_disc a b c X Y Z ->
  (forall i j, pd (ux t i) j X Y Z (uxx i j)) -> (forall i j, uxx i j = uxx j i) -> (forall i, pd (ut t) i X Y Z (utx i)) -> (forall i, derivable_pt_lim (fun s => ux s i X Y Z) t (utx i)) -> derivable_pt_lim (fun s => ut s X Y Z) t utt ->
  let Pi := fun s => normal M Sx Sy Sz (ut s) (ux s) in (forall i, pd (Pi t) i X Y Z (dPi i)) ->
  let phi := fun i => ux t i X Y Z in let s := hole3 M Sx Sy Sz X Y Z in let f := Field1 (Pi t X Y Z) (v3 dPi) (v3 phi) (v3 phi) (v9 uxx) in
  r1_psi s f = ut t X Y Z /\ (forall i, r1_phi s f (n3 i) = utx i) /\
  (derivable_pt_lim (fun s => Pi s X Y Z) t (r1_Pi s f rho) <-> box4 M Sx Sy Sz X Y Z (grad4 (ut t X Y Z) phi) (hess4 utt utx uxx) = rho).
Proof.
  intros HM SP D Hxx SY Htx Hxt Htt Pi HP' phi s f. pose proof (al_pos M Sx Sy Sz a b c X Y Z HM SP D) as AP.
  destruct (C117_lapse_shift M Sx Sy Sz a b c X Y Z HM SP D) as (DA & DB).
  assert (E1 : r1_psi s f = ut t X Y Z).
  { unfold r1_psi, beta_dpsi, f, s, hole3, Pi, normal, S3, phi. cbn [w_alpha w_beta w_Pi w_dpsi v3 n3]. field. lra. }
  assert (E2 : forall i, r1_phi s f (n3 i) = utx i).
  { intros i.
    assert (PN : pd (fun x y z => S3 (fun j => k3_beta M Sx Sy Sz x y z (n3 j) * ux t j x y z) - ut t x y z) i X Y Z (S3 (fun j => k3_dbeta M Sx Sy Sz X Y Z (3 * n3 j + n3 i)%nat * ux t j X Y Z + k3_beta M Sx Sy Sz X Y Z (n3 j) * uxx j i) - utx i)).
    { apply (pd_minus (fun x y z => S3 (fun j => k3_beta M Sx Sy Sz x y z (n3 j) * ux t j x y z)) (ut t)); [|apply Htx]. apply (pd_S3 (fun j x y z => k3_beta M Sx Sy Sz x y z (n3 j) * ux t j x y z)). intros j. apply (pd_mult (fun x y z => k3_beta M Sx Sy Sz x y z (n3 j)) (ux t j)); [apply DB|apply Hxx]. }
    assert (PQ := pd_div (fun x y z => S3 (fun j => k3_beta M Sx Sy Sz x y z (n3 j) * ux t j x y z) - ut t x y z) (fun x y z => k3_alpha M Sx Sy Sz x y z) i X Y Z _ _ (Rgt_not_eq _ _ AP) PN (DA i)).
    pose proof (pd_unique _ _ _ _ _ _ _ (HP' i) PQ) as EP. cbv beta in EP.
    assert (U : utx i = S3 (fun j => k3_dbeta M Sx Sy Sz X Y Z (3 * n3 j + n3 i)%nat * ux t j X Y Z + k3_beta M Sx Sy Sz X Y Z (n3 j) * uxx j i) - k3_alpha M Sx Sy Sz X Y Z * dPi i - Pi t X Y Z * k3_dalpha M Sx Sy Sz X Y Z (n3 i)).
    { rewrite EP. unfold Pi, normal. field. lra. }
    rewrite U. unfold r1_phi, b_dphi, phi_db, f, s, hole3, S3, phi. cbn [w_alpha w_beta w_dalpha w_dbeta w_Pi w_dPi w_phi w_dphi]. destruct i; cbn [n3 v3 v9 Nat.mul Nat.add]; rewrite ?(SY D2 D1), ?(SY D3 D1), ?(SY D3 D2); ring. }
  split; [exact E1|]. split; [exact E2|].
  set (q := (S3 (fun j => k3_beta M Sx Sy Sz X Y Z (n3 j) * utx j) - utt) / k3_alpha M Sx Sy Sz X Y Z).
  assert (TQ : derivable_pt_lim (fun s => Pi s X Y Z) t q).
  { unfold Pi, normal, q, Rdiv.
    assert (SC : forall i, derivable_pt_lim (fun s => k3_beta M Sx Sy Sz X Y Z (n3 i) * ux s i X Y Z) t (k3_beta M Sx Sy Sz X Y Z (n3 i) * utx i)) by (intros i; apply (derivable_pt_lim_scal (fun s => ux s i X Y Z)); apply Hxt).
    pose proof (derivable_pt_lim_minus _ _ _ _ _ (derivable_pt_lim_plus _ _ _ _ _ (derivable_pt_lim_plus _ _ _ _ _ (SC D1) (SC D2)) (SC D3)) Htt) as W.
    pose proof (derivable_pt_lim_scal _ (/ k3_alpha M Sx Sy Sz X Y Z) _ _ W) as W'.
    unfold S3. rewrite Rmult_comm. revert W'. apply derivable_pt_lim_ext. intros u. unfold mult_real_fct, minus_fct, plus_fct. ring. }
  pose proof (box_split M Sx Sy Sz a b c X Y Z HM SP D (Pi t X Y Z) q dPi phi uxx rho SY) as B. cbv zeta in B. fold f s in B. rewrite E1 in B.
  assert (B' : box4 M Sx Sy Sz X Y Z (grad4 (ut t X Y Z) phi) (hess4 utt utx uxx) = rho + (q - r1_Pi s f rho) / k3_alpha M Sx Sy Sz X Y Z).
  { rewrite <- B. assert (EH : forall m n, hess4 utt utx uxx m n = hess4 (S3 (fun i => k3_beta M Sx Sy Sz X Y Z (n3 i) * r1_phi s f (n3 i)) - k3_alpha M Sx Sy Sz X Y Z * q) (fun i => r1_phi s f (n3 i)) uxx m n).
    { intros [|i] [|j]; cbn [hess4]; rewrite ?E2; auto. unfold q, S3. rewrite !E2. field. lra. }
    unfold box4, S4, S3. rewrite !EH. reflexivity. }
  rewrite B'. split.
  - intros W. rewrite (uniqueness_limite _ _ _ _ TQ W). unfold Rdiv. ring.
  - intros W. replace (r1_Pi s f rho) with q; [exact TQ|]. assert (Q : (q - r1_Pi s f rho) / k3_alpha M Sx Sy Sz X Y Z * k3_alpha M Sx Sy Sz X Y Z = 0) by (replace ((q - r1_Pi s f rho) / k3_alpha M Sx Sy Sz X Y Z) with 0 by lra; ring).
    replace ((q - r1_Pi s f rho) / k3_alpha M Sx Sy Sz X Y Z * k3_alpha M Sx Sy Sz X Y Z) with (q - r1_Pi s f rho) in Q by (field; lra). lra.
Qed.
(** The constraint  C_i = phi_i - d_i psi  is carried along by the shift: its rate is  beta^j d_j C_i + C_j d_i beta^j, so it stays zero where it is zero. *)
Theorem C120_constraint M Sx Sy Sz a b c X Y Z (psix phi : d3 -> fn3) (Pi : fn3) (dPi : d3 -> R) (dphi ddpsi : d3 -> d3 -> R) : 0 <= M -> spin_per_mass M Sx Sy Sz a b c -> outside_disc a b c X Y Z ->
  (forall i j, pd (psix i) j X Y Z (ddpsi i j)) -> (forall i j, ddpsi i j = ddpsi j i) -> (forall i j, pd (phi i) j X Y Z (dphi i j)) -> (forall i, pd Pi i X Y Z (dPi i)) ->
  let f := fun x y z => Field1 (Pi x y z) (v3 dPi) (v3 (fun i => psix i x y z)) (v3 (fun i => phi i x y z)) (v9 dphi) in
  let C := fun i x y z => phi i x y z - psix i x y z in
  forall i, exists dr dC, pd (fun x y z => r1_psi (hole3 M Sx Sy Sz x y z) (f x y z)) i X Y Z dr /\ (forall j, pd (C i) j X Y Z (dC j)) /\
    r1_phi (hole3 M Sx Sy Sz X Y Z) (f X Y Z) (n3 i) - dr = S3 (fun j => k3_beta M Sx Sy Sz X Y Z (n3 j) * dC j + C j X Y Z * k3_dbeta M Sx Sy Sz X Y Z (3 * n3 j + n3 i)%nat).
Proof.
  intros HM SP D Hxx SY Hph HPi f C i. destruct (C117_lapse_shift M Sx Sy Sz a b c X Y Z HM SP D) as (DA & DB).
  exists (S3 (fun j => k3_dbeta M Sx Sy Sz X Y Z (3 * n3 j + n3 i)%nat * psix j X Y Z + k3_beta M Sx Sy Sz X Y Z (n3 j) * ddpsi j i) - (k3_dalpha M Sx Sy Sz X Y Z (n3 i) * Pi X Y Z + k3_alpha M Sx Sy Sz X Y Z * dPi i)), (fun j => dphi i j - ddpsi i j).
  split; [|split].
  - apply (pd_ext' (fun x y z => S3 (fun j => k3_beta M Sx Sy Sz x y z (n3 j) * psix j x y z) - k3_alpha M Sx Sy Sz x y z * Pi x y z)); [intros; reflexivity|].
    apply (pd_minus (fun x y z => S3 (fun j => k3_beta M Sx Sy Sz x y z (n3 j) * psix j x y z)) (fun x y z => k3_alpha M Sx Sy Sz x y z * Pi x y z)).
    + apply (pd_S3 (fun j x y z => k3_beta M Sx Sy Sz x y z (n3 j) * psix j x y z)). intros j. apply (pd_mult (fun x y z => k3_beta M Sx Sy Sz x y z (n3 j)) (psix j)); [apply DB|apply Hxx].
    + apply (pd_mult (fun x y z => k3_alpha M Sx Sy Sz x y z) Pi); [apply DA|apply HPi].
  - intros j. apply (pd_minus (phi i) (psix i)); [apply Hph|apply Hxx].
  - unfold r1_phi, b_dphi, phi_db, f, hole3, C, S3. cbn [w_alpha w_beta w_dalpha w_dbeta w_Pi w_dPi w_phi w_dphi]. destruct i; cbn [n3 v3 v9 Nat.mul Nat.add]; rewrite ?(SY D2 D1), ?(SY D3 D1), ?(SY D3 D2); ring.
Qed.
(** ** second order in space *)
Lemma gtt_neg M Sx Sy Sz a b c X Y Z : 0 <= M -> spin_per_mass M Sx Sy Sz a b c -> outside_disc a b c X Y Z -> kerr_gup M Sx Sy Sz X Y Z 0%nat < 0.
Proof. intros HM SP D. pose proof (HP M Sx Sy Sz a b c X Y Z HM SP D) as P. change (kerr_gup M Sx Sy Sz X Y Z 0%nat) with (kerr_gup M Sx Sy Sz X Y Z (n10 Tm Tm)). rewrite gup_sk. cbn [eta Lu_sk]. lra. Qed.
(** With Pi = d psi / d t the rate of psi is Pi and the rate of Pi is the second time derivative that solves the wave equation; the variables that are not set have no effect. *)
Theorem C121_second_order M Sx Sy Sz a b c X Y Z (Pi : R) (dPi psix : d3 -> R) (uxx : d3 -> d3 -> R) rho un : 0 <= M -> spin_per_mass M Sx Sy Sz a b c -> outside_disc a b c X Y Z -> (forall i j, uxx i j = uxx j i) ->
  let s := hole3 M Sx Sy Sz X Y Z in let m := hole4 M Sx Sy Sz X Y Z in let f := Field2 Pi (v3 dPi) (v3 psix) (v6 uxx) in
  r2_psi false s f = Pi /\ (forall utt, box4 M Sx Sy Sz X Y Z (grad4 Pi psix) (hess4 utt dPi uxx) = rho <-> utt = r2_Pi false s m f rho un).
Proof.
  intros HM SP D SY s m f. pose proof (gtt_neg M Sx Sy Sz a b c X Y Z HM SP D) as GN. split; [unfold r2_psi, q_B, q_A; cbn [w_Pi2 f]; ring|]. intros utt.
  assert (B : box4 M Sx Sy Sz X Y Z (grad4 Pi psix) (hess4 utt dPi uxx) = rho + (utt - r2_Pi false s m f rho un) * kerr_gup M Sx Sy Sz X Y Z 0%nat).
  { unfold box4, S4, S3, r2_Pi, psidotdot, gG_dpsi, g_ddpsi, psidotx, psidoty, psidotz, psidot, q_B, q_A, q_dA, q_dB, f, m, hole4. cbn [w_Pi2 w_dPi2 w_d w_dd w_gup4 w_G4 v3 v6 n10 n4 grad4 hess4]. rewrite (SY D2 D1), (SY D3 D1), (SY D3 D2). field. lra. }
  rewrite B. split; intros E; [|rewrite E; ring]. assert (Q : (utt - r2_Pi false s m f rho un) * kerr_gup M Sx Sy Sz X Y Z 0%nat = 0) by lra. apply Rmult_integral in Q. lra.
Qed.
(** With Scheel's Pi the variables that are not set change the rate of Pi... *)
Lemma scheel_un M Sx Sy Sz a b c X Y Z f rho un un' : 0 <= M -> spin_per_mass M Sx Sy Sz a b c -> outside_disc a b c X Y Z ->
  let s := hole3 M Sx Sy Sz X Y Z in let m := hole4 M Sx Sy Sz X Y Z in let B := fun i => k3_beta M Sx Sy Sz X Y Z i in let d := fun n => un n - un' n in
  r2_Pi true s m f rho un - r2_Pi true s m f rho un' = - (B 0%nat * B 1%nat * (d 0%nat + d 2%nat) + B 0%nat * B 2%nat * (d 1%nat + d 4%nat) + B 1%nat * B 2%nat * (d 3%nat + d 5%nat)) / k3_alpha M Sx Sy Sz X Y Z.
Proof.
  intros HM SP D s m B d. pose proof (al_pos M Sx Sy Sz a b c X Y Z HM SP D) as AP. pose proof (C117_spacetime M Sx Sy Sz a b c X Y Z HM SP D) as (_ & Gtt & Gti & _). cbv beta zeta in *.
  pose proof (Gti D1) as G1. pose proof (Gti D2) as G2. pose proof (Gti D3) as G3. cbn [n10 n4 n3] in *.
  unfold r2_Pi, psidotdot, gG_dpsi, g_ddpsi, psidotx, psidoty, psidotz, psidot, q_B, q_A, q_dA, q_dB, m, s, hole4, hole3. cbn [w_gup4 w_G4 w_alpha w_beta w_dalpha w_dbeta]. rewrite Gtt, G1, G2, G3. unfold B, d. field. lra.
Qed.
(** If the unset variables were the mixed derivatives, the rate would be that of the first order form, which C120_solution is about. *)
Theorem C121_scheel_partial M Sx Sy Sz a b c X Y Z (Pi : R) (dPi psix : d3 -> R) (uxx : d3 -> d3 -> R) rho : 0 <= M -> spin_per_mass M Sx Sy Sz a b c -> outside_disc a b c X Y Z -> (forall i j, uxx i j = uxx j i) ->
  let s := hole3 M Sx Sy Sz X Y Z in let m := hole4 M Sx Sy Sz X Y Z in let f := Field2 Pi (v3 dPi) (v3 psix) (v6 uxx) in let f1 := Field1 Pi (v3 dPi) (v3 psix) (v3 psix) (v9 uxx) in
  r2_psi true s f = r1_psi s f1 /\ r2_Pi true s m f rho (vmix uxx) = r1_Pi s f1 rho.
Proof.
  intros HM SP D SY s m f f1. split; [reflexivity|].
  pose proof (gtt_neg M Sx Sy Sz a b c X Y Z HM SP D) as GN. pose proof (al_pos M Sx Sy Sz a b c X Y Z HM SP D) as AP.
  pose proof (box_split M Sx Sy Sz a b c X Y Z HM SP D Pi (r2_Pi true s m f rho (vmix uxx)) dPi psix uxx rho SY) as B. cbv zeta in B. fold f1 s in B.
  assert (P : forall i, r1_phi s f1 (n3 i) = match i with D1 => psidotx true s f (vmix uxx) | D2 => psidoty true s f (vmix uxx) | D3 => psidotz true s f (vmix uxx) end).
  { intros i. unfold r1_phi, b_dphi, phi_db, psidotx, psidoty, psidotz, q_B, q_A, q_dA, q_dB, f, f1. destruct i; cbn [n3 Nat.mul Nat.add w_phi w_dphi w_Pi w_dPi w_Pi2 w_dPi2 w_d w_dd v3 v6 v9 vmix]; rewrite ?(SY D2 D1), ?(SY D3 D1), ?(SY D3 D2); ring. }
  assert (E : box4 M Sx Sy Sz X Y Z (grad4 (r1_psi s f1) psix) (hess4 (S3 (fun i => k3_beta M Sx Sy Sz X Y Z (n3 i) * r1_phi s f1 (n3 i)) - k3_alpha M Sx Sy Sz X Y Z * r2_Pi true s m f rho (vmix uxx)) (fun i => r1_phi s f1 (n3 i)) uxx) = rho).
  { assert (DD : S3 (fun i => k3_beta M Sx Sy Sz X Y Z (n3 i) * r1_phi s f1 (n3 i)) - k3_alpha M Sx Sy Sz X Y Z * r2_Pi true s m f rho (vmix uxx) = psidotdot true s m f rho (vmix uxx)).
    { unfold S3. rewrite !P. unfold r2_Pi, q_A, q_B, s, hole3. cbn [w_alpha w_beta n3]. field. lra. }
    rewrite DD. unfold box4, S4, S3. cbn [hess4 grad4]. rewrite !P. unfold psidotdot, g_ddpsi, gG_dpsi. replace (psidot true s f) with (r1_psi s f1) by reflexivity.
    generalize (psidotx true s f (vmix uxx)) (psidoty true s f (vmix uxx)) (psidotz true s f (vmix uxx)) (r1_psi s f1). intros px py pz p0.
    unfold m, hole4, f. cbn [w_gup4 w_G4 n10 n4 w_d w_dd v3 v6]. rewrite ?(SY D2 D1), ?(SY D3 D1), ?(SY D3 D2). field. lra. }
  rewrite E in B. assert (Q : (r2_Pi true s m f rho (vmix uxx) - r1_Pi s f1 rho) / k3_alpha M Sx Sy Sz X Y Z * k3_alpha M Sx Sy Sz X Y Z = 0) by (replace ((r2_Pi true s m f rho (vmix uxx) - r1_Pi s f1 rho) / k3_alpha M Sx Sy Sz X Y Z) with 0 by lra; ring).
  replace ((r2_Pi true s m f rho (vmix uxx) - r1_Pi s f1 rho) / k3_alpha M Sx Sy Sz X Y Z * k3_alpha M Sx Sy Sz X Y Z) with (r2_Pi true s m f rho (vmix uxx) - r1_Pi s f1 rho) in Q by (field; lra). lra.
Qed.
(** ... so the claim fails: two runs that differ only in memory that was never written give different rates (mass 1, no spin, at (3, 4, 0)). *)
Theorem C121_scheel_refuted : exists M Sx Sy Sz X Y Z f rho un un', 0 < M /\ outside_disc 0 0 0 X Y Z /\ spin_per_mass M Sx Sy Sz 0 0 0 /\
  r2_Pi true (hole3 M Sx Sy Sz X Y Z) (hole4 M Sx Sy Sz X Y Z) f rho un <> r2_Pi true (hole3 M Sx Sy Sz X Y Z) (hole4 M Sx Sy Sz X Y Z) f rho un'.
Proof.
  assert (SP : spin_per_mass 1 0 0 0 0 0 0) by (split; intros; repeat split; lra). assert (D : outside_disc 0 0 0 3 4 0) by (right; lra). assert (HM : 0 <= 1) by lra.
  exists 1, 0, 0, 0, 3, 4, 0, (Field2 0 (fun _ => 0) (fun _ => 0) (fun _ => 0)), 0, (fun _ => 1), (fun _ => 0). split; [lra|]. split; [exact D|]. split; [exact SP|]. intros E.
  pose proof (scheel_un 1 0 0 0 0 0 0 3 4 0 (Field2 0 (fun _ => 0) (fun _ => 0) (fun _ => 0)) 0 (fun _ => 1) (fun _ => 0) HM SP D) as U. cbv beta zeta in U. rewrite E in U.
  pose proof (al_pos 1 0 0 0 0 0 0 3 4 0 HM SP D) as AP. pose proof (al_sq 1 0 0 0 0 0 0 3 4 0 HM SP D) as AS.
  destruct (C116_metric 1 0 0 0 0 0 0 3 4 0 SP D) as (r & KR & KU & G & _). assert (R5 : r = 5) by (symmetry; apply KU; split; [lra|ring]). subst r.
  pose proof (HP 1 0 0 0 0 0 0 3 4 0 HM SP D) as P.
  assert (GS := fun m n => eq_trans (eq_sym (g_sk 1 0 0 0 3 4 0 m n)) (G m n)). unfold kerr_H in GS.
  pose proof (GS Tm Tm) as G0. pose proof (GS Tm (Sp D1)) as G1. pose proof (GS Tm (Sp D2)) as G2. pose proof (GS Tm (Sp D3)) as G3. unfold kerr_L, kerr_l in *. cbn [eta L_sk] in *.
  pose proof (beta_H 1 0 0 0 3 4 0 D1) as B1. pose proof (beta_H 1 0 0 0 3 4 0 D2) as B2. pose proof (beta_H 1 0 0 0 3 4 0 D3) as B3. cbn [n3] in *.
  set (H := sk_H 1 0 0 0 3 4 0) in *. assert (H5 : H = / 5) by lra.
  assert (L1 : H * l_sk 1 0 0 0 3 4 0 D1 = 3 / 25) by lra. assert (L2 : H * l_sk 1 0 0 0 3 4 0 D2 = 4 / 25) by lra. assert (L3 : H * l_sk 1 0 0 0 3 4 0 D3 = 0) by lra.
  replace (2 * H * l_sk 1 0 0 0 3 4 0 D1) with (2 * (H * l_sk 1 0 0 0 3 4 0 D1)) in B1 by ring. replace (2 * H * l_sk 1 0 0 0 3 4 0 D2) with (2 * (H * l_sk 1 0 0 0 3 4 0 D2)) in B2 by ring. replace (2 * H * l_sk 1 0 0 0 3 4 0 D3) with (2 * (H * l_sk 1 0 0 0 3 4 0 D3)) in B3 by ring.
  rewrite L1, H5 in B1. rewrite L2, H5 in B2. rewrite L3, H5 in B3. rewrite B1, B2, B3 in U.
  set (al := k3_alpha 1 0 0 0 3 4 0) in *. assert (Q : 0 = - (2 * (3 / 25) / (1 + 2 * / 5) * (2 * (4 / 25) / (1 + 2 * / 5)) * 2) / al) by (rewrite Rminus_diag_eq in U by reflexivity; rewrite U; field; lra).
  assert (Q' : 0 * al = - (2 * (3 / 25) / (1 + 2 * / 5) * (2 * (4 / 25) / (1 + 2 * / 5)) * 2)) by (rewrite Q at 1; field; lra). lra.
Qed.
(** Whether or not the first order constraint holds, the rate of Pi sees only the symmetric part of the derivatives of phi: exchanging d_j phi_i and d_i phi_j does not change it. *)
Theorem C120_symmetric s Pi dPi dpsi phi (d : d3 -> d3 -> R) rho : r1_Pi s (Field1 Pi dPi dpsi phi (v9 d)) rho = r1_Pi s (Field1 Pi dPi dpsi phi (v9 (fun i j => d j i))) rho.
Proof. unfold r1_Pi, beta_dPi, ag_dphi, aG_phi, g_phi_da, aKPi. cbn [w_Pi w_dPi w_dpsi w_phi w_dphi v9]. ring. Qed.
Print Assumptions C120_symmetric.
(** ** the new values *)
(** With a time step the new value is the previous one plus the step times the rate, without one it is the rate. *)
Theorem C120_new dt pre rhs : (dt <> 0 -> r_new dt pre rhs = pre + dt * rhs) /\ (dt = 0 -> r_new dt pre rhs = rhs).
Proof. unfold r_new. destruct (Req_EM_T dt 0); split; intros; tauto || lra. Qed.
(** a wave u = t x + y^2 around a black hole of mass 2 and spin (0, 0, 1) at (1, 2, 2), at time 3 *)
Example C120_ex : let ut := fun (t : R) (x y z : R) => x in let ux := fun (t : R) (i : d3) (x y z : R) => match i with D1 => t | D2 => 2 * y | D3 => 0 end in
  let uxx := fun i j => match i, j with D2, D2 => 2 | _, _ => 0 end in let utx := fun i => match i with D1 => 1 | _ => 0 end in
  spin_per_mass 2 0 0 1 0 0 (/ 2) /\ outside_disc 0 0 (/ 2) 1 2 2 /\ (forall i j, pd (ux 3 i) j 1 2 2 (uxx i j)) /\ (forall i, pd (ut 3) i 1 2 2 (utx i)) /\ (forall i, derivable_pt_lim (fun s => ux s i 1 2 2) 3 (utx i)) /\ derivable_pt_lim (fun s => ut s 1 2 2) 3 0 /\
  exists dPi, forall i, pd (normal 2 0 0 1 (ut 3) (ux 3)) i 1 2 2 (dPi i).
Proof.
  intros ut ux uxx utx. assert (SP : spin_per_mass 2 0 0 1 0 0 (/ 2)) by (split; [intros _; repeat split; field|intros Q; lra]). assert (D : outside_disc 0 0 (/ 2) 1 2 2) by (left; lra).
  assert (Hx : forall i j, pd (ux 3 i) j 1 2 2 (uxx i j)).
  { intros i j. destruct i; [apply (pd_val _ _ _ _ _ 0); [destruct j; reflexivity|exact (pd_const 3 j 1 2 2)]| |apply (pd_val _ _ _ _ _ 0); [destruct j; reflexivity|exact (pd_const 0 j 1 2 2)]].
    eapply pd_val; [|exact (pd_scal 2 (co D2) j 1 2 2 _ (pd_co D2 j 1 2 2))]. destruct j; cbn; ring. }
  assert (Ht : forall i, pd (ut 3) i 1 2 2 (utx i)) by (intros i; eapply pd_val; [|exact (pd_co D1 i 1 2 2)]; destruct i; reflexivity).
  split; [exact SP|]. split; [exact D|]. split; [exact Hx|]. split; [exact Ht|]. split; [|split; [apply derivable_pt_lim_const|]].
  - intros [| |]; [apply derivable_pt_lim_id|apply derivable_pt_lim_const|apply derivable_pt_lim_const].
  - assert (HM : 0 <= 2) by lra. destruct (C117_lapse_shift 2 0 0 1 0 0 (/ 2) 1 2 2 HM SP D) as (DA & DB). eexists. intros i.
    apply (pd_div (fun x y z => S3 (fun j => k3_beta 2 0 0 1 x y z (n3 j) * ux 3 j x y z) - ut 3 x y z) (fun x y z => k3_alpha 2 0 0 1 x y z)); [apply Rgt_not_eq, (al_pos 2 0 0 1 0 0 (/ 2)); assumption| |apply DA].
    apply (pd_minus (fun x y z => S3 (fun j => k3_beta 2 0 0 1 x y z (n3 j) * ux 3 j x y z)) (ut 3)); [|apply Ht]. apply (pd_S3 (fun j x y z => k3_beta 2 0 0 1 x y z (n3 j) * ux 3 j x y z)). intros j. apply (pd_mult (fun x y z => k3_beta 2 0 0 1 x y z (n3 j)) (ux 3 j)); [apply DB|apply Hx].
Qed.
Print Assumptions C120_solution.
Print Assumptions C120_constraint.
Print Assumptions C121_second_order.
Print Assumptions C121_scheel_partial.
Print Assumptions C121_scheel_refuted.
Print Assumptions C120_new.
