(** C117: the 3+1 tables used by the scalar field on Kerr are the lapse, shift, metric, curvature and connection of the slices of the Kerr metric. *)
From Verif Require Import Rutil Coord_model Coord_spec Adm_model Adm_spec Adm_proofs Adm2_proofs Adm_props Bh_model Bh_proofs Bh_props Ks_model Ks_spec Ks_proofs Frame_proofs Ks2_proofs Ks3_proofs Ks4_proofs Ks_props Sok_model Sok_spec Sok_props Sok3_model.
From Coq Require Import Lia.
Local Open Scope R_scope.
Section CODE.
Variables (M Sx Sy Sz a b c : R).
Hypothesis SPM : spin_per_mass M Sx Sy Sz a b c.
Section PT.
Variables (X Y Z : R).
Notation k f := (f M Sx Sy Sz X Y Z).
Notation k3 f := (f M Sx Sy Sz X Y Z).
Let A1 := aS1 M Sx Sy Sz a b c SPM. Let A2 := aS2 M Sx Sy Sz a b c SPM. Let A3 := aS3 M Sx Sy Sz a b c SPM.
Lemma g_k3 i j : k3 k3_g (s6 i j) = g_ks M a b c X Y Z i j. Proof. rewrite <- A1, <- A2, <- A3. destruct i, j; reflexivity. Qed.
Lemma K_k3 i j : k3 k3_K (s6 i j) = K_ks M a b c X Y Z i j. Proof. rewrite <- A1, <- A2, <- A3. destruct i, j; reflexivity. Qed.
Lemma alpha_k3 : k3 k3_alpha = ks_alpha M a b c X Y Z. Proof. rewrite <- A1, <- A2, <- A3. reflexivity. Qed.
Lemma beta_k3 i : k3 k3_beta (n3 i) = beta_ks M a b c X Y Z i. Proof. rewrite <- A1, <- A2, <- A3. destruct i; reflexivity. Qed.
Notation H := (k sk_H). Notation l i := (k l_sk i). Notation h i := (k dH_sk i). Notation dl i j := (k dl_sk i j).
Lemma alpha_H : k3 k3_alpha = 1 / sqrt (1 + 2 * H). Proof. reflexivity. Qed.
Lemma beta_H i : k3 k3_beta (n3 i) = 2 * H * l i / (1 + 2 * H). Proof. destruct i; reflexivity. Qed.
Lemma g_H i j : k3 k3_g (s6 i j) = delta i j + 2 * H * l i * l j.
Proof.
  assert (E : k3 s3_H = H /\ k3 s3_l1 = l D1 /\ k3 s3_l2 = l D2 /\ k3 s3_l3 = l D3) by (repeat split; reflexivity). destruct E as (E0 & E1 & E2 & E3).
  destruct i, j; cbn [s6 k3_g delta]; unfold s3_g11, s3_g12, s3_g13, s3_g22, s3_g23, s3_g33; rewrite ?E0, ?E1, ?E2, ?E3; ring.
Qed.
Lemma dalpha_H i : k3 k3_dalpha (n3 i) = - (h i / (sqrt (1 + 2 * H) + 2 * H * sqrt (1 + 2 * H))). Proof. destruct i; reflexivity. Qed.
Lemma dbeta_H i j : k3 k3_dbeta (3 * n3 i + n3 j)%nat = 2 * (dl i j * H + h j * l i) / (1 + 2 * H) - 4 * h j * H * l i / (1 + 4 * (H + H ^ 2)). Proof. destruct i, j; reflexivity. Qed.
Definition dg3 (q i j : d3) : R := 2 * (h q * l i * l j + H * (dl i q * l j + l i * dl j q)).
Lemma Gam_k3 i j q : k3 k3_Gam (6 * n3 i + s6 j q)%nat = S3 (fun p => k3 k3_gup (s6 i p) * (1 / 2 * (dg3 j p q + dg3 q p j - dg3 p j q))).
Proof.
  assert (E : k3 s3_H = H /\ k3 s3_l1 = l D1 /\ k3 s3_l2 = l D2 /\ k3 s3_l3 = l D3 /\ k3 s3_dH1 = h D1 /\ k3 s3_dH2 = h D2 /\ k3 s3_dH3 = h D3) by (repeat split; reflexivity). destruct E as (E0 & E1 & E2 & E3 & F1 & F2 & F3).
  assert (E : k3 s3_dl11 = dl D1 D1 /\ k3 s3_dl12 = dl D1 D2 /\ k3 s3_dl13 = dl D1 D3 /\ k3 s3_dl21 = dl D2 D1 /\ k3 s3_dl22 = dl D2 D2 /\ k3 s3_dl23 = dl D2 D3 /\ k3 s3_dl31 = dl D3 D1 /\ k3 s3_dl32 = dl D3 D2 /\ k3 s3_dl33 = dl D3 D3) by (repeat split; reflexivity).
  destruct E as (L11 & L12 & L13 & L21 & L22 & L23 & L31 & L32 & L33).
  unfold S3, dg3. destruct i, j, q; cbn [s6 n3 k3_Gam k3_gup Nat.mul Nat.add];
  unfold s3_Gam111, s3_Gam112, s3_Gam113, s3_Gam122, s3_Gam123, s3_Gam133, s3_Gam211, s3_Gam212, s3_Gam213, s3_Gam222, s3_Gam223, s3_Gam233, s3_Gam311, s3_Gam312, s3_Gam313, s3_Gam322, s3_Gam323, s3_Gam333; unfold s3_Gamdo111, s3_Gamdo112, s3_Gamdo113, s3_Gamdo122, s3_Gamdo123, s3_Gamdo133, s3_Gamdo211, s3_Gamdo212, s3_Gamdo213, s3_Gamdo222, s3_Gamdo223, s3_Gamdo233, s3_Gamdo311, s3_Gamdo312, s3_Gamdo313, s3_Gamdo322, s3_Gamdo323, s3_Gamdo333; unfold s3_dg111, s3_dg112, s3_dg113, s3_dg121, s3_dg122, s3_dg123, s3_dg131, s3_dg132, s3_dg133, s3_dg221, s3_dg222, s3_dg223, s3_dg231, s3_dg232, s3_dg233, s3_dg331, s3_dg332, s3_dg333;
  rewrite ?E0, ?E1, ?E2, ?E3, ?F1, ?F2, ?F3, ?L11, ?L12, ?L13, ?L21, ?L22, ?L23, ?L31, ?L32, ?L33; field.
Qed.
Lemma G_k3 i : k3 k3_G (n3 i) = SS (fun j q => k3 k3_gup (s6 j q) * k3 k3_Gam (6 * n3 i + s6 j q)%nat).
Proof. unfold SS, S3. destruct i; cbn [s6 n3 k3_G k3_Gam k3_gup Nat.mul Nat.add]; unfold s3_G1, s3_G2, s3_G3; ring. Qed.
Lemma TrK_k3 : k3 k3_TrK = SS (fun i j => k3 k3_gup (s6 i j) * k3 k3_K (s6 i j)).
Proof. unfold SS, S3. cbn [s6 k3_K k3_gup]. unfold k3_TrK, s3_TrK. ring. Qed.
Hypothesis HM : 0 <= M.
Hypothesis OD : off_disc a b c X Y Z.
Lemma H_pos : 0 < 1 + 2 * H.
Proof. rewrite (H_all M Sx Sy Sz a b c SPM). exact (H_nn M a b c HM X Y Z OD). Qed.
Lemma gup_inv i j : S3 (fun p => k3 k3_gup (s6 i p) * k3 k3_g (s6 p j)) = delta i j.
Proof.
  pose proof H_pos as HP. pose proof (null_sk _ _ _ _ _ _ _ SPM X Y Z OD) as N. pose proof g_H as G.
  assert (DT : 2 * k3 s3_g12 * k3 s3_g13 * k3 s3_g23 + k3 s3_g11 * k3 s3_g22 * k3 s3_g33 - k3 s3_g33 * k3 s3_g12 ^ 2 - k3 s3_g22 * k3 s3_g13 ^ 2 - k3 s3_g11 * k3 s3_g23 ^ 2 = 1 + 2 * H).
  { pose proof (G D1 D1) as G11. pose proof (G D1 D2) as G12. pose proof (G D1 D3) as G13. pose proof (G D2 D2) as G22. pose proof (G D2 D3) as G23. pose proof (G D3 D3) as G33. cbn [s6 k3_g delta] in G11, G12, G13, G22, G23, G33.
    rewrite G11, G12, G13, G22, G23, G33. transitivity (1 + 2 * H * S3 (fun i => l i * l i)); [unfold S3; ring|rewrite N; ring]. }
  assert (NZ : 1 + 2 * H <> 0) by lra.
  unfold S3. destruct i, j; cbn [s6 k3_g k3_gup delta]; unfold s3_gup11, s3_gup12, s3_gup13, s3_gup22, s3_gup23, s3_gup33, s3_detgup;
    rewrite DT; (apply (Rmult_eq_reg_r (1 + 2 * H)); [|exact NZ]);
    first [rewrite Rmult_0_l; field; exact NZ | rewrite Rmult_1_l; refine (eq_trans _ DT); field; exact NZ].
Qed.
End PT.
End CODE.
(** ** the tables and those of the initial data of a single black hole *)
Lemma g_data M Sx Sy Sz a b c i j x y z : spin_per_mass M Sx Sy Sz a b c -> 0 <= M -> off_disc a b c x y z -> k3_g M Sx Sy Sz x y z (s6 i j) = fst (SingleBHKS false M a b c x y z) 0%nat ^ 4 * snd (SingleBHKS false M a b c x y z) (s6 i j).
Proof. intros SP HM D. rewrite (gb_g M a b c x y z HM D), (g_k3 _ _ _ _ _ _ _ SP). apply g_g. Qed.
Lemma beta_data M Sx Sy Sz a b c i x y z : spin_per_mass M Sx Sy Sz a b c -> k3_beta M Sx Sy Sz x y z (n3 i) = snd (SingleBHKS false M a b c x y z) (13 + n3 i)%nat.
Proof. intros SP. rewrite (beta_k3 _ _ _ _ _ _ _ SP). destruct i; reflexivity. Qed.
Lemma alpha_data M Sx Sy Sz a b c x y z : spin_per_mass M Sx Sy Sz a b c -> k3_alpha M Sx Sy Sz x y z = snd (SingleBHKS false M a b c x y z) 12%nat.
Proof. intros SP. rewrite (alpha_k3 _ _ _ _ _ _ _ SP). reflexivity. Qed.
Lemma K_data M Sx Sy Sz a b c i j x y z : spin_per_mass M Sx Sy Sz a b c -> k3_K M Sx Sy Sz x y z (s6 i j) = snd (SingleBHKS false M a b c x y z) (6 + s6 i j)%nat.
Proof. intros SP. rewrite (K_k3 _ _ _ _ _ _ _ SP). destruct i, j; reflexivity. Qed.
Lemma kerr_schild_ext H l g g' al al' be be' : (forall i j, g i j = g' i j) -> al = al' -> (forall i, be i = be' i) -> kerr_schild H l g' al' be' -> kerr_schild H l g al be.
Proof.
  intros G A B (K1 & K2 & K3 & K4). subst al'. repeat split; auto.
  - intros. rewrite G. apply K1.
  - intros. rewrite <- K2. unfold S3. now rewrite !G, !B.
  - rewrite <- K3. unfold S3. now rewrite !G, !B.
Qed.
(** ** the lapse, shift and metric are those of the Kerr metric, and the inverse metric is the inverse *)
Theorem C117_slice M Sx Sy Sz a b c x y z : 0 <= M -> spin_per_mass M Sx Sy Sz a b c -> outside_disc a b c x y z ->
  exists r, kerr_radius a b c x y z r /\ (forall r', kerr_radius a b c x y z r' -> r' = r) /\
    kerr_schild (kerr_H M a b c x y z r) (kerr_l a b c x y z r) (fun i j => k3_g M Sx Sy Sz x y z (s6 i j)) (k3_alpha M Sx Sy Sz x y z) (fun i => k3_beta M Sx Sy Sz x y z (n3 i)) /\
    inverse (fun i j => k3_g M Sx Sy Sz x y z (s6 i j)) (fun i j => k3_gup M Sx Sy Sz x y z (s6 i j)).
Proof.
  intros HM SP D. destruct (C105_metric false M a b c x y z HM D) as (r & KR & U & _ & _ & KS). exists r. split; [exact KR|]. split; [exact U|].
  pose proof (disc_eq _ _ _ _ _ _ D) as OD. split.
  - revert KS. apply kerr_schild_ext; [intros; now apply g_data|now apply alpha_data|intros; now apply beta_data].
  - intros i j. now apply (gup_inv _ _ _ _ _ _ _ SP).
Qed.
(** ** the derivatives of lapse and shift, the curvature and its trace, and the Christoffel symbols belong to that slice *)
Lemma pd_g3 M Sx Sy Sz a b c X Y Z q i j : spin_per_mass M Sx Sy Sz a b c -> off_disc a b c X Y Z -> pd (fun x y z => k3_g M Sx Sy Sz x y z (s6 i j)) q X Y Z (dg3 M Sx Sy Sz X Y Z q i j).
Proof.
  intros SP OD. apply (pd_ext' (fun x y z => delta i j + 2 * sk_H M Sx Sy Sz x y z * l_sk M Sx Sy Sz x y z i * l_sk M Sx Sy Sz x y z j)); [intros; symmetry; apply g_H|].
  eapply pd_val; [|apply (pd_plus (fun _ _ _ => delta i j) (fun x y z => 2 * sk_H M Sx Sy Sz x y z * l_sk M Sx Sy Sz x y z i * l_sk M Sx Sy Sz x y z j)); [apply pd_const|];
    apply (pd_mult (fun x y z => 2 * sk_H M Sx Sy Sz x y z * l_sk M Sx Sy Sz x y z i) (fun x y z => l_sk M Sx Sy Sz x y z j)); [|apply (pd_l_sk _ _ _ _ _ _ _ SP X Y Z OD)];
    apply (pd_mult (fun x y z => 2 * sk_H M Sx Sy Sz x y z) (fun x y z => l_sk M Sx Sy Sz x y z i)); [|apply (pd_l_sk _ _ _ _ _ _ _ SP X Y Z OD)];
    apply (pd_scal 2 (fun x y z => sk_H M Sx Sy Sz x y z)); apply (pd_H_sk _ _ _ _ _ _ _ SP X Y Z OD)].
  cbv beta. unfold dg3. ring.
Qed.
Theorem C117_lapse_shift M Sx Sy Sz a b c X Y Z : 0 <= M -> spin_per_mass M Sx Sy Sz a b c -> outside_disc a b c X Y Z ->
  (forall q, pd (fun x y z => k3_alpha M Sx Sy Sz x y z) q X Y Z (k3_dalpha M Sx Sy Sz X Y Z (n3 q))) /\
  (forall q i, pd (fun x y z => k3_beta M Sx Sy Sz x y z (n3 i)) q X Y Z (k3_dbeta M Sx Sy Sz X Y Z (3 * n3 i + n3 q)%nat)).
Proof.
  intros HM SP D. apply disc_eq in D. pose proof (H_pos M Sx Sy Sz a b c SP X Y Z HM D) as HP.
  assert (P1 : forall q, pd (fun x y z => 1 + 2 * sk_H M Sx Sy Sz x y z) q X Y Z (0 + 2 * dH_sk M Sx Sy Sz X Y Z q)).
  { intros q. apply (pd_plus (fun _ _ _ => 1) (fun x y z => 2 * sk_H M Sx Sy Sz x y z)); [exact (pd_const 1 q X Y Z)|]. apply (pd_scal 2 (fun x y z => sk_H M Sx Sy Sz x y z)). apply (pd_H_sk _ _ _ _ _ _ _ SP X Y Z D). }
  split.
  - intros q. rewrite dalpha_H. assert (SQ : 0 < sqrt (1 + 2 * sk_H M Sx Sy Sz X Y Z)) by now apply sqrt_lt_R0. assert (SS' := sqrt_sqrt _ (Rlt_le _ _ HP)).
    apply (pd_ext' (fun x y z => 1 / sqrt (1 + 2 * sk_H M Sx Sy Sz x y z))); [intros; symmetry; apply alpha_H|].
    eapply pd_val; [|apply (pd_div (fun _ _ _ => 1) (fun x y z => sqrt (1 + 2 * sk_H M Sx Sy Sz x y z))); [lra|exact (pd_const 1 q X Y Z)|apply (pd_sqrt (fun x y z => 1 + 2 * sk_H M Sx Sy Sz x y z)); [exact HP|apply P1]]].
    cbv beta. rewrite SS'. revert SQ HP. generalize (sqrt (1 + 2 * sk_H M Sx Sy Sz X Y Z)). intros s Hs HP. field. repeat split; try lra. replace (s + 2 * sk_H M Sx Sy Sz X Y Z * s) with (s * (1 + 2 * sk_H M Sx Sy Sz X Y Z)) by ring. nra.
  - intros q i. rewrite dbeta_H. apply (pd_ext' (fun x y z => 2 * sk_H M Sx Sy Sz x y z * l_sk M Sx Sy Sz x y z i / (1 + 2 * sk_H M Sx Sy Sz x y z))); [intros; symmetry; apply beta_H|].
    eapply pd_val; [|apply (pd_div (fun x y z => 2 * sk_H M Sx Sy Sz x y z * l_sk M Sx Sy Sz x y z i) (fun x y z => 1 + 2 * sk_H M Sx Sy Sz x y z)); [lra| |apply P1];
      apply (pd_mult (fun x y z => 2 * sk_H M Sx Sy Sz x y z) (fun x y z => l_sk M Sx Sy Sz x y z i)); [apply (pd_scal 2 (fun x y z => sk_H M Sx Sy Sz x y z)); apply (pd_H_sk _ _ _ _ _ _ _ SP X Y Z D)|apply (pd_l_sk _ _ _ _ _ _ _ SP X Y Z D)]].
    cbv beta. revert HP. generalize (sk_H M Sx Sy Sz X Y Z). intros H HP. field. split; [replace (1 + 4 * (H + H ^ 2)) with ((1 + 2 * H) * (1 + 2 * H)) by ring; nra|lra].
Qed.
Theorem C117_curvature M Sx Sy Sz a b c X Y Z dg : 0 <= M -> spin_per_mass M Sx Sy Sz a b c -> outside_disc a b c X Y Z ->
  (forall q i j, pd (fun x y z => k3_g M Sx Sy Sz x y z (s6 i j)) q X Y Z (dg q i j)) ->
  let g := fun i j => k3_g M Sx Sy Sz X Y Z (s6 i j) in let gi := fun i j => k3_gup M Sx Sy Sz X Y Z (s6 i j) in
  let K := fun i j => k3_K M Sx Sy Sz X Y Z (s6 i j) in let Gam := Adm_spec.christoffel gi dg in
  (forall i j, K i j = stationary_K g (k3_alpha M Sx Sy Sz X Y Z) (fun i => k3_beta M Sx Sy Sz X Y Z (n3 i)) dg (fun q i => k3_dbeta M Sx Sy Sz X Y Z (3 * n3 i + n3 q)%nat) i j) /\
  k3_TrK M Sx Sy Sz X Y Z = trace gi K /\
  (forall i j q, k3_Gam M Sx Sy Sz X Y Z (6 * n3 i + s6 j q)%nat = Gam i j q) /\ (forall i, k3_G M Sx Sy Sz X Y Z (n3 i) = trace gi (Gam i)).
Proof.
  intros HM SP D HD g gi K Gam. pose proof (disc_eq _ _ _ _ _ _ D) as OD.
  assert (EG : forall i j q, k3_Gam M Sx Sy Sz X Y Z (6 * n3 i + s6 j q)%nat = Gam i j q).
  { intros i j q. rewrite Gam_k3. unfold Gam, Adm_spec.christoffel, gi.
    assert (U : forall q i j, dg q i j = dg3 M Sx Sy Sz X Y Z q i j) by (intros; refine (pd_unique _ _ _ _ _ _ _ (HD _ _ _) (pd_g3 _ _ _ _ _ _ _ _ _ _ _ _ _ SP OD))).
    unfold S3. rewrite !U. field. }
  split; [|split; [apply TrK_k3|split; [exact EG|]]].
  - intros i j. destruct (C117_lapse_shift M Sx Sy Sz a b c X Y Z HM SP D) as (_ & DB). destruct (C105_curvature false M a b c X Y Z HM D) as (dg' & db' & HG & HB & E). destruct (off_open _ _ _ _ _ _ OD) as (e & He & HO).
    unfold K. rewrite (K_data _ _ _ _ _ _ _ _ _ _ _ _ SP), E. unfold stationary_K. rewrite (alpha_data _ _ _ _ _ _ _ _ _ _ SP). f_equal.
    assert (U : forall q i j, dg q i j = dg' q i j). { intros. refine (pd_unique _ _ _ _ _ _ _ (HD _ _ _) _). refine (pd_ext _ _ _ _ _ _ _ e He _ (HG _ _ _)). intros x y z N. symmetry. apply g_data; auto. }
    assert (V : forall q i, k3_dbeta M Sx Sy Sz X Y Z (3 * n3 i + n3 q)%nat = db' q i). { intros. refine (pd_unique _ _ _ _ _ _ _ (DB _ _) _). refine (pd_ext _ _ _ _ _ _ _ e He _ (HB _ _)). intros x y z N. symmetry. now apply beta_data. }
    apply S3_ext. intros q. unfold g. now rewrite U, !V, !(g_data _ _ _ _ _ _ _ _ _ _ _ _ SP HM OD), (beta_data _ _ _ _ _ _ _ _ _ _ _ SP).
  - intros i. rewrite G_k3. unfold trace, SS, S3. now rewrite !EG.
Qed.
(** ** the 3+1 tables and the space-time tables are of one metric *)
Theorem C117_spacetime M Sx Sy Sz a b c x y z : 0 <= M -> spin_per_mass M Sx Sy Sz a b c -> outside_disc a b c x y z ->
  let al := k3_alpha M Sx Sy Sz x y z in let be := fun i => k3_beta M Sx Sy Sz x y z (n3 i) in
  let gup := fun m n => kerr_gup M Sx Sy Sz x y z (n10 m n) in let g := fun m n => kerr_g M Sx Sy Sz x y z (n10 m n) in
  (forall i j, g (Sp i) (Sp j) = k3_g M Sx Sy Sz x y z (s6 i j)) /\ gup Tm Tm = - 1 / (al * al) /\ (forall i, gup Tm (Sp i) = be i / (al * al)) /\ (forall i j, gup (Sp i) (Sp j) = k3_gup M Sx Sy Sz x y z (s6 i j) - be i * be j / (al * al)).
Proof.
  intros HM SP D al be gup g. apply disc_eq in D. pose proof (H_pos M Sx Sy Sz a b c SP x y z HM D) as HP. pose proof (null_sk _ _ _ _ _ _ _ SP x y z D) as N.
  assert (AA : al * al = / (1 + 2 * sk_H M Sx Sy Sz x y z)).
  { unfold al. rewrite alpha_H. rewrite <- (sqrt_sqrt (1 + 2 * sk_H M Sx Sy Sz x y z)) at 3 by lra. field. apply Rgt_not_eq, sqrt_lt_R0, HP. }
  assert (BE : forall i, be i = 2 * sk_H M Sx Sy Sz x y z * l_sk M Sx Sy Sz x y z i / (1 + 2 * sk_H M Sx Sy Sz x y z)) by (intros; apply beta_H).
  assert (GI : forall i j, k3_gup M Sx Sy Sz x y z (s6 i j) = delta i j - 2 * sk_H M Sx Sy Sz x y z / (1 + 2 * sk_H M Sx Sy Sz x y z) * l_sk M Sx Sy Sz x y z i * l_sk M Sx Sy Sz x y z j).
  { intros i j. pose proof (gup_inv M Sx Sy Sz a b c SP x y z HM D i) as I.
    set (H := sk_H M Sx Sy Sz x y z) in *. set (L := l_sk M Sx Sy Sz x y z) in *.
    set (Q := fun p j : d3 => delta p j - 2 * H / (1 + 2 * H) * L p * L j).
    assert (GQ : forall p j, S3 (fun q => k3_g M Sx Sy Sz x y z (s6 p q) * Q q j) = delta p j).
    { intros p q. transitivity (delta p q - 4 * H * H / (1 + 2 * H) * L p * L q * (S3 (fun i => L i * L i) - 1)); [|rewrite N; ring].
      unfold S3, Q. rewrite !g_H. fold H. fold L. destruct p, q; cbn [delta]; field; lra. }
    transitivity (S3 (fun q => delta i q * Q q j)); [|unfold S3, Q; destruct i, j; cbn [delta]; ring].
    transitivity (S3 (fun q => S3 (fun p => k3_gup M Sx Sy Sz x y z (s6 i p) * k3_g M Sx Sy Sz x y z (s6 p q)) * Q q j)); [|unfold S3 at 1 3; now rewrite !I].
    transitivity (S3 (fun p => k3_gup M Sx Sy Sz x y z (s6 i p) * S3 (fun q => k3_g M Sx Sy Sz x y z (s6 p q) * Q q j))); [|unfold S3; ring].
    unfold S3 at 1. rewrite !GQ. destruct j; cbn [delta]; ring. }
  split; [|split; [|split]].
  - intros i j. unfold g. rewrite g_sk, g_H. reflexivity.
  - unfold gup. rewrite gup_sk, AA. cbn [Lu_sk eta]. field. lra.
  - intros i. unfold gup. rewrite gup_sk, AA, BE. cbn [Lu_sk eta]. field. lra.
  - intros i j. unfold gup. rewrite gup_sk, AA, !BE, GI. cbn [Lu_sk eta]. field. lra.
Qed.
(** a black hole of mass 2 and spin (0, 0, 1) at (1, 2, 2) *)
Example C117_ex : spin_per_mass 2 0 0 1 0 0 (/ 2) /\ outside_disc 0 0 (/ 2) 1 2 2 /\ exists dg, forall q i j, pd (fun x y z => k3_g 2 0 0 1 x y z (s6 i j)) q 1 2 2 (dg q i j).
Proof.
  assert (SP : spin_per_mass 2 0 0 1 0 0 (/ 2)) by (split; [intros _; repeat split; field|intros Q; lra]). assert (D : outside_disc 0 0 (/ 2) 1 2 2) by (left; lra).
  split; [exact SP|]. split; [exact D|]. exists (dg3 2 0 0 1 1 2 2). intros. apply (pd_g3 _ _ _ _ _ _ _ _ _ _ _ _ _ SP). now apply disc_eq.
Qed.
Print Assumptions C117_slice.
Print Assumptions C117_lapse_shift.
Print Assumptions C117_curvature.
Print Assumptions C117_spacetime.
