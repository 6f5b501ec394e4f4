(** C105: the black hole in Kerr-Schild coordinates is the Kerr metric, and solves the constraints. *)
From Verif Require Import Rutil Coord_model Coord_spec Adm_model Adm_spec Adm_proofs Adm2_proofs Adm_props Bh_model Bh_proofs Bh_props Ks_model Ks_spec Ks_proofs Frame_proofs Ks2_proofs Ks3_proofs Ks4_proofs.
From Coq Require Import List Lia.
Import ListNotations.
Local Open Scope R_scope.
(** ** what the code sets, written with the functions of Ks4_proofs.v *)
Section CODE.
Variables (M Sx Sy Sz X Y Z : R).
Hypothesis HM : 0 <= M.
Hypothesis OD : off_disc Sx Sy Sz X Y Z.
Notation c f := (f Sx Sy Sz X Y Z).
Notation cM f := (f M Sx Sy Sz X Y Z).
Let A := Af Sx Sy Sz X Y Z. Let B := Bf Sx Sy Sz X Y Z. Let l := Lx Sx Sy Sz X Y Z. Let p := Px Sx Sy Sz X Y Z. Let q := Qx Sx Sy Sz X Y Z. Let s := sF M Sx Sy Sz X Y Z.
Lemma rho2_ks : ks_rho X Y Z ^ 2 = rho2 X Y Z.
Proof. unfold ks_rho, rho2. replace (sqrt (X ^ 2 + Y ^ 2 + Z ^ 2) ^ 2) with (sqrt (X ^ 2 + Y ^ 2 + Z ^ 2) * sqrt (X ^ 2 + Y ^ 2 + Z ^ 2)) by ring. rewrite sqrt_sqrt; [ring|nra]. Qed.
Lemma a2_ks : ks_a2 Sx Sy Sz = a2 Sx Sy Sz. Proof. unfold ks_a2, ks_aS1, ks_aS2, ks_aS3, a2. ring. Qed.
Lemma w_ks : ks_adotx Sx Sy Sz X Y Z = wf Sx Sy Sz X Y Z. Proof. reflexivity. Qed.
Definition dr_ks (k : d3) : R := match k with D1 => c ks_dr1 | D2 => c ks_dr2 | D3 => c ks_dr3 end.
Lemma dr_p k : dr_ks k = p k.
Proof.
  unfold p, Px. rewrite <- (dr_A _ _ _ _ _ _ OD). destruct k; unfold dr_ks, ks_dr1, ks_dr2, ks_dr3; rewrite rho2_ks, a2_ks, w_ks; cbn [av co]; unfold ks_aS1, ks_aS2, ks_aS3; reflexivity.
Qed.
Lemma H_A : cM ks_H = M * A.
Proof. unfold ks_H. rewrite w_ks. unfold A, Af. change (ks_r Sx Sy Sz X Y Z) with (rf Sx Sy Sz X Y Z). unfold Rdiv. ring. Qed.
Definition dH_ks (k : d3) : R := match k with D1 => cM ks_dH1 | D2 => cM ks_dH2 | D3 => cM ks_dH3 end.
Lemma dH_h k : dH_ks k = kh M A B p q k.
Proof.
  pose proof (r_pos _ _ _ _ _ _ OD) as RP. pose proof (N_pos _ _ _ _ _ _ OD) as NP. cbv zeta in RP, NP.
  transitivity (M * A * (- 2 * wf Sx Sy Sz X Y Z * av Sx Sy Sz k * rf Sx Sy Sz X Y Z + p k * (- rf Sx Sy Sz X Y Z ^ 4 + 3 * wf Sx Sy Sz X Y Z ^ 2)) / (rf Sx Sy Sz X Y Z ^ 5 + rf Sx Sy Sz X Y Z * wf Sx Sy Sz X Y Z ^ 2)).
  - rewrite <- dr_p, <- H_A. destruct k; reflexivity.
  - unfold kh, kA, A, B, p, q, Px, Qx, pv, qv, Af, Bf. assert (rf Sx Sy Sz X Y Z ^ 5 + rf Sx Sy Sz X Y Z * wf Sx Sy Sz X Y Z ^ 2 <> 0) by (replace (rf Sx Sy Sz X Y Z ^ 5 + rf Sx Sy Sz X Y Z * wf Sx Sy Sz X Y Z ^ 2) with (rf Sx Sy Sz X Y Z * (rf Sx Sy Sz X Y Z ^ 4 + wf Sx Sy Sz X Y Z ^ 2)) by ring; apply Rmult_integral_contrapositive_currified; lra). field. repeat split; assumption || lra.
Qed.
Definition l_ks (i : d3) : R := match i with D1 => c ks_l1 | D2 => c ks_l2 | D3 => c ks_l3 end.
Lemma l_l i : l_ks i = l i.
Proof.
  destruct i; unfold l_ks, ks_l1, ks_l2, ks_l3; rewrite a2_ks, w_ks; unfold l, Lx, lf; cbn [av cr co]; change (ks_r Sx Sy Sz X Y Z) with (rf Sx Sy Sz X Y Z); f_equal; unfold ks_acrossx1, ks_acrossx2, ks_acrossx3, ks_aS1, ks_aS2, ks_aS3; ring.
Qed.
Definition dl_ks (i k : d3) : R := match i, k with
  | D1, D1 => c ks_dl11 | D1, D2 => c ks_dl12 | D1, D3 => c ks_dl13 | D2, D1 => c ks_dl21 | D2, D2 => c ks_dl22 | D2, D3 => c ks_dl23 | D3, D1 => c ks_dl31 | D3, D2 => c ks_dl32 | D3, D3 => c ks_dl33 end.
Lemma dl_l' i k : dl_ks i k = kl A B l delta (e2 l) i k.
Proof.
  change (dl_ks i k = dlf Sx Sy Sz i k X Y Z). rewrite <- (dl_A _ _ _ _ _ _ OD).
  replace ((a2 Sx Sy Sz * rf Sx Sy Sz X Y Z + rf Sx Sy Sz X Y Z ^ 3) * (a2 Sx Sy Sz * rf Sx Sy Sz X Y Z + rf Sx Sy Sz X Y Z ^ 3)) with (2 * a2 Sx Sy Sz * rf Sx Sy Sz X Y Z ^ 4 + rf Sx Sy Sz X Y Z ^ 6 + a2 Sx Sy Sz ^ 2 * rf Sx Sy Sz X Y Z ^ 2) by ring.
  fold (Px Sx Sy Sz X Y Z k). change (Px Sx Sy Sz X Y Z k) with (p k). rewrite <- dr_p.
  destruct i, k; unfold dl_ks, ks_dl11, ks_dl12, ks_dl13, ks_dl21, ks_dl22, ks_dl23, ks_dl31, ks_dl32, ks_dl33; rewrite a2_ks, w_ks; change (ks_r Sx Sy Sz X Y Z) with (rf Sx Sy Sz X Y Z);
    (f_equal; [f_equal|f_equal]); unfold tv, hat, S3, dr_ks; cbn [av co cr delta eps3]; unfold ks_ahat12, ks_ahat13, ks_ahat23, ks_acrossx1, ks_acrossx2, ks_acrossx3, ks_aS1, ks_aS2, ks_aS3; ring.
Qed.
Lemma alpha_s : cM ks_alpha = s.
Proof. unfold ks_alpha. rewrite H_A. reflexivity. Qed.
Let HP : 0 < 1 + 2 * (M * A) := H_nn M Sx Sy Sz HM X Y Z OD.
Let SS1 : s * s * (1 + 2 * (M * A)) = 1 := s_sq M Sx Sy Sz HM X Y Z OD.
Definition beta_ks (i : d3) : R := match i with D1 => cM ks_beta1 | D2 => cM ks_beta2 | D3 => cM ks_beta3 end.
Lemma beta_b i : beta_ks i = bF M Sx Sy Sz i X Y Z.
Proof.
  transitivity (2 * (M * A) * l i / (1 + 2 * (M * A))).
  - rewrite <- H_A, <- l_l. destruct i; reflexivity.
  - unfold bF. fold s. fold (Lx Sx Sy Sz X Y Z i). fold l. assert (E : s * s = / (1 + 2 * (M * A))) by (apply (Rmult_eq_reg_r (1 + 2 * (M * A))); [rewrite SS1; field; lra|lra]). rewrite E. change (Lx Sx Sy Sz X Y Z i) with (l i). field. lra.
Qed.
Definition K_ks (i j : d3) : R := match i, j with D1, D1 => cM ks_K11 | D1, D2 | D2, D1 => cM ks_K12 | D1, D3 | D3, D1 => cM ks_K13 | D2, D2 => cM ks_K22 | D2, D3 | D3, D2 => cM ks_K23 | D3, D3 => cM ks_K33 end.
Definition K_form (H al : R) (l h : d3 -> R) (dl : d3 -> d3 -> R) (i j : d3) : R :=
  al * (l i * h j + l j * h i + H * (dl i j + dl j i) + 2 * (H * H) * (l i * S3 (fun c => l c * dl j c) + l j * S3 (fun c => l c * dl i c)) + 2 * H * (l i * l j) * S3 (fun c => l c * h c)).
Lemma K_k i j : K_ks i j = KF M Sx Sy Sz i j X Y Z.
Proof.
  transitivity (K_form (cM ks_H) (cM ks_alpha) l_ks dH_ks dl_ks i j).
  - destruct i, j; unfold K_ks, K_form, S3, l_ks, dH_ks, dl_ks, ks_K11, ks_K12, ks_K13, ks_K22, ks_K23, ks_K33; ring.
  - rewrite H_A, alpha_s. transitivity (K_form (M * A) s l (kh M A B p q) (kl A B l delta (e2 l)) i j).
    { unfold K_form, S3. rewrite !l_l, !dH_h, !dl_l'. reflexivity. }
    unfold K_form. unfold l, A, B. rewrite !(l_dl Sx Sy Sz X Y Z OD). unfold p, q. rewrite (l_h M Sx Sy Sz X Y Z OD). rewrite (dl_sym Sx Sy Sz X Y Z). unfold KF, kK, kc, s. unfold kh. ring.
Qed.
Definition g_ks (i j : d3) : R := match i, j with D1, D1 => cM ks_g11 | D1, D2 | D2, D1 => cM ks_g12 | D1, D3 | D3, D1 => cM ks_g13 | D2, D2 => cM ks_g22 | D2, D3 | D3, D2 => cM ks_g23 | D3, D3 => cM ks_g33 end.
Lemma g_g i j : g_ks i j = gF M Sx Sy Sz i j X Y Z.
Proof.
  transitivity (delta i j + 2 * (M * A) * l i * l j); [|reflexivity]. rewrite <- H_A, <- !l_l. destruct i, j; unfold g_ks, ks_g11, ks_g12, ks_g13, ks_g22, ks_g23, ks_g33, l_ks; cbn [delta]; ring.
Qed.
Lemma psi_pos cf : 0 < ks_psi cf M Sx Sy Sz X Y Z.
Proof.
  unfold ks_psi. destruct cf; [|lra]. pose proof (r_pos _ _ _ _ _ _ OD) as RP. cbv zeta in RP. change (ks_r Sx Sy Sz X Y Z) with (rf Sx Sy Sz X Y Z). assert (0 <= 2 * M / rf Sx Sy Sz X Y Z); [|lra]. unfold Rdiv. apply Rmult_le_pos; [lra|]. left. now apply Rinv_0_lt_compat.
Qed.
Lemma gb_g cf i j : fst (SingleBHKS cf M Sx Sy Sz X Y Z) 0%nat ^ 4 * snd (SingleBHKS cf M Sx Sy Sz X Y Z) (s6 i j) = gF M Sx Sy Sz i j X Y Z.
Proof.
  rewrite <- g_g. pose proof (psi_pos cf) as PP. unfold SingleBHKS. cbn [fst snd].
  assert (G : forall x, ks_psi cf M Sx Sy Sz X Y Z ^ 4 * (x / ks_psi cf M Sx Sy Sz X Y Z ^ 4) = x) by (intros; field; lra).
  destruct i, j; cbn [s6 nth g_ks]; unfold ks_gb11, ks_gb12, ks_gb13, ks_gb22, ks_gb23, ks_gb33; apply G.
Qed.
Lemma K_u cf i j : snd (SingleBHKS cf M Sx Sy Sz X Y Z) (6 + s6 i j)%nat = KF M Sx Sy Sz i j X Y Z.
Proof. rewrite <- K_k. destruct i, j; reflexivity. Qed.
Lemma alp_u cf : snd (SingleBHKS cf M Sx Sy Sz X Y Z) 12%nat = s. Proof. rewrite <- alpha_s. reflexivity. Qed.
Lemma beta_u cf i : snd (SingleBHKS cf M Sx Sy Sz X Y Z) (13 + n3 i)%nat = bF M Sx Sy Sz i X Y Z. Proof. rewrite <- beta_b. destruct i; reflexivity. Qed.
End CODE.
(** ** the disc *)
Lemma disc_eq a b c x y z : outside_disc a b c x y z -> off_disc a b c x y z.
Proof. intros D. exact D. Qed.
Lemma sq_near e x u : Rabs (u - x) < e -> e <= 1 -> x * x - e * (2 * Rabs x + 1) <= u * u.
Proof.
  intros A E. pose proof (Rabs_pos (u - x)). pose proof (Rabs_pos x). replace (u * u) with (x * x + (u - x) * (2 * x + (u - x))) by ring.
  assert (Rabs ((u - x) * (2 * x + (u - x))) <= e * (2 * Rabs x + 1)). { rewrite Rabs_mult. apply Rmult_le_compat; try apply Rabs_pos; try lra. eapply Rle_trans; [apply Rabs_triang|]. rewrite Rabs_mult, (Rabs_right 2) by lra. lra. }
  pose proof (Rle_abs (- ((u - x) * (2 * x + (u - x))))). rewrite Rabs_Ropp in H2. lra.
Qed.
(** the outside of the disc is open *)
Lemma off_open a b c x y z : off_disc a b c x y z -> exists e, 0 < e /\ forall u v t, near e x y z u v t -> off_disc a b c u v t.
Proof.
  intros [D|D].
  - set (w := wf a b c x y z) in *. set (n := 1 + Rabs a + Rabs b + Rabs c). pose proof (Rabs_pos a). pose proof (Rabs_pos b). pose proof (Rabs_pos c). pose proof (Rabs_pos_lt _ D) as WP. assert (NP : 0 < n) by (unfold n; lra). exists (Rabs w / n). split; [unfold Rdiv; apply Rmult_lt_0_compat; [lra|now apply Rinv_0_lt_compat]|].
    intros u v t (N1 & N2 & N3). left. intros E. assert (EW : w = a * (x - u) + b * (y - v) + c * (z - t)) by (unfold w, wf in *; lra).
    assert (L : Rabs w <= (Rabs a + Rabs b + Rabs c) * (Rabs w / n)). { rewrite EW at 1. eapply Rle_trans; [apply Rabs_triang|]. eapply Rle_trans; [apply Rplus_le_compat_r, Rabs_triang|]. rewrite !Rabs_mult. rewrite (Rabs_minus_sym x u), (Rabs_minus_sym y v), (Rabs_minus_sym z t). nra. }
    assert (E2 : (Rabs a + Rabs b + Rabs c) * (Rabs w / n) = Rabs w - Rabs w / n) by (unfold n; field; fold n; lra). assert (0 < Rabs w / n) by (unfold Rdiv; apply Rmult_lt_0_compat; [lra|now apply Rinv_0_lt_compat]). lra.
  - set (d := rho2 x y z - a2 a b c). set (n := 4 + 2 * Rabs x + 2 * Rabs y + 2 * Rabs z). pose proof (Rabs_pos x). pose proof (Rabs_pos y). pose proof (Rabs_pos z). assert (NP : 0 < n) by (unfold n; lra). assert (DP : 0 < d) by (unfold d; lra). assert (QP : 0 < d / n) by (unfold Rdiv; apply Rmult_lt_0_compat; [lra|now apply Rinv_0_lt_compat]).
    exists (Rmin 1 (d / n)). split; [now apply Rmin_glb_lt; lra|]. intros u v t (N1 & N2 & N3). right. pose proof (Rmin_l 1 (d / n)) as E1. pose proof (Rmin_r 1 (d / n)) as E2. set (e := Rmin 1 (d / n)) in *.
    pose proof (sq_near _ _ _ N1 E1). pose proof (sq_near _ _ _ N2 E1). pose proof (sq_near _ _ _ N3 E1). assert (EP : 0 < e) by (apply Rmin_glb_lt; lra).
    assert (e * (2 * Rabs x + 1) + e * (2 * Rabs y + 1) + e * (2 * Rabs z + 1) < d). { apply Rlt_le_trans with (e * n); [unfold n; nra|]. apply Rle_trans with (d / n * n); [apply Rmult_le_compat_r; lra|]. right. field. lra. }
    unfold d, rho2 in *. lra.
Qed.
(** ** the Kerr metric *)
Lemma root_unique u v r r' : 0 < r -> 0 < r' -> r ^ 4 - u * r ^ 2 - v ^ 2 = 0 -> r' ^ 4 - u * r' ^ 2 - v ^ 2 = 0 -> r = r'.
Proof.
  intros P P' E E'. assert (F : (r * r - r' * r') * (r * r * (r' * r') + v * v) = 0). { replace ((r * r - r' * r') * (r * r * (r' * r') + v * v)) with ((r' * r') * (r ^ 4 - u * r ^ 2 - v ^ 2) - (r * r) * (r' ^ 4 - u * r' ^ 2 - v ^ 2)) by ring. rewrite E, E'. ring. }
  apply Rmult_integral in F. assert (0 < r * r * (r' * r')) by (repeat apply Rmult_lt_0_compat; auto). destruct F as [F|F]; [|nra]. assert (F' : (r - r') * (r + r') = 0) by (rewrite <- F; ring). apply Rmult_integral in F'. lra.
Qed.
Theorem C105_metric cf M a b c x y z : 0 <= M -> outside_disc a b c x y z ->
  exists r, kerr_radius a b c x y z r /\ (forall r', kerr_radius a b c x y z r' -> r' = r) /\ S3 (fun i => kerr_l a b c x y z r i * kerr_l a b c x y z r i) = 1 /\
    let psi := fst (SingleBHKS cf M a b c x y z) 0%nat in let u := snd (SingleBHKS cf M a b c x y z) in
    psi = (if cf then 1 + 2 * M / r else 1) /\
    kerr_schild (kerr_H M a b c x y z r) (kerr_l a b c x y z r) (fun i j => psi ^ 4 * u (s6 i j)) (u 12%nat) (fun i => u (13 + n3 i)%nat).
Proof.
  intros HM D. apply disc_eq in D. exists (rf a b c x y z). pose proof (r_pos _ _ _ _ _ _ D) as RP. pose proof (N_pos _ _ _ _ _ _ D) as NP. pose proof (D_pos _ _ _ _ _ _ D) as DP. pose proof (quartic _ _ _ _ _ _ D) as Q. cbv zeta in RP, NP, DP, Q.
  assert (KR : kerr_radius a b c x y z (rf a b c x y z)) by (split; [exact RP|]; unfold rho2, a2, wf in Q; lra).
  assert (EL : forall i, kerr_l a b c x y z (rf a b c x y z) i = lf a b c i x y z).
  { intros i. unfold kerr_l, lf. cbv zeta. replace (rf a b c x y z * (rf a b c x y z ^ 2 + (a * a + b * b + c * c))) with (a2 a b c * rf a b c x y z + rf a b c x y z ^ 3) by (unfold a2; ring). f_equal. destruct i; unfold wf; cbn [av cr co]; ring. }
  assert (EH : kerr_H M a b c x y z (rf a b c x y z) = M * Af a b c x y z) by (unfold kerr_H, Af, wf, Rdiv; ring).
  split; [exact KR|]. split; [intros r' (P' & E'); destruct KR as (P & E); now apply (root_unique _ _ _ _ P' P E' E)|].
  assert (U : S3 (fun i => lf a b c i x y z * lf a b c i x y z) = 1) by apply (l_unit _ _ _ _ _ _ D).
  split; [unfold S3; rewrite !EL; exact U|]. cbv zeta. split; [reflexivity|].
  assert (G : forall i j, fst (SingleBHKS cf M a b c x y z) 0%nat ^ 4 * snd (SingleBHKS cf M a b c x y z) (s6 i j) = delta i j + 2 * (M * Af a b c x y z) * lf a b c i x y z * lf a b c j x y z) by (intros; apply (gb_g M a b c x y z HM D)).
  pose proof (s_sq M a b c HM x y z D) as SQ. pose proof (s_pos M a b c HM x y z D) as SP. cbv zeta in SQ, SP.
  split; [intros; rewrite EH, !EL; apply G|]. rewrite (alp_u M a b c x y z). rewrite EH.
  assert (BE : forall i, snd (SingleBHKS cf M a b c x y z) (13 + n3 i)%nat = (1 - sF M a b c x y z * sF M a b c x y z) * lf a b c i x y z) by (intros; now apply beta_u).
  revert U G SQ SP BE. set (h := M * Af a b c x y z). set (s := sF M a b c x y z).
  set (L := fun i => lf a b c i x y z) in *. intros U G SQ SP BE.
  assert (T : (1 - s * s) * (1 + 2 * h) = 2 * h) by lra.
  split; [|split; [|exact SP]].
  - intros i. rewrite EL. unfold S3. rewrite !G, !BE. change (lf a b c ?i x y z) with (L i). transitivity ((1 - s * s) * (L i + 2 * h * L i * S3 (fun k => L k * L k))); [unfold S3; destruct i; cbn [delta]; ring|]. change (S3 (fun k => L k * L k)) with (S3 (fun k => lf a b c k x y z * lf a b c k x y z)). rewrite U. transitivity (L i * ((1 - s * s) * (1 + 2 * h))); [ring|]. rewrite T. change (lf a b c i x y z) with (L i). ring.
  - unfold S3 at 1 2. rewrite !G, !BE. change (lf a b c ?i x y z) with (L i).
    transitivity (- (s * s) + (1 - s * s) * (1 - s * s) * (S3 (fun k => L k * L k) + 2 * h * (S3 (fun k => L k * L k) * S3 (fun k => L k * L k)))); [unfold S3; cbn [delta]; ring|]. change (S3 (fun k => L k * L k)) with (S3 (fun k => lf a b c k x y z * lf a b c k x y z)). rewrite U. transitivity (- (s * s) + (1 - s * s) * ((1 - s * s) * (1 + 2 * h))); [ring|]. rewrite T. transitivity (2 * h - s * s * (1 + 2 * h)); [ring|]. rewrite SQ. ring.
Qed.
(** ** the extrinsic curvature is that of the slice: exact derivatives of the metric and of the shift that the code sets *)
Theorem C105_curvature cf M a b c X Y Z : 0 <= M -> outside_disc a b c X Y Z ->
  let psi := fun x y z => fst (SingleBHKS cf M a b c x y z) 0%nat in let u := fun n x y z => snd (SingleBHKS cf M a b c x y z) n in
  exists dg db, (forall k i j, pd (fun x y z => psi x y z ^ 4 * u (s6 i j) x y z) k X Y Z (dg k i j)) /\ (forall k i, pd (u (13 + n3 i)%nat) k X Y Z (db k i)) /\
    forall i j, u (6 + s6 i j)%nat X Y Z = stationary_K (fun i j => psi X Y Z ^ 4 * u (s6 i j) X Y Z) (u 12%nat X Y Z) (fun i => u (13 + n3 i)%nat X Y Z) dg db i j.
Proof.
  intros HM D psi u. apply disc_eq in D. destruct (off_open _ _ _ _ _ _ D) as (e & He & HO).
  exists (fun k i j => dgF M a b c k i j X Y Z), (fun k i => 2 * (sF M a b c X Y Z * sF M a b c X Y Z * (sF M a b c X Y Z * sF M a b c X Y Z)) * kh M (Af a b c X Y Z) (Bf a b c X Y Z) (Px a b c X Y Z) (Qx a b c X Y Z) k * Lx a b c X Y Z i + (1 - sF M a b c X Y Z * sF M a b c X Y Z) * kl (Af a b c X Y Z) (Bf a b c X Y Z) (Lx a b c X Y Z) delta (e2 (Lx a b c X Y Z)) i k).
  split; [|split].
  - intros k i j. apply (pd_ext (gF M a b c i j) _ _ _ _ _ _ e He); [|apply (d_g M a b c X Y Z D)]. intros x y z N. symmetry. now apply (gb_g M a b c x y z HM (HO _ _ _ N)).
  - intros k i. apply (pd_ext (bF M a b c i) _ _ _ _ _ _ e He); [|now apply (d_b M a b c HM X Y Z D)]. intros x y z N. symmetry. now apply (beta_u M a b c x y z HM (HO _ _ _ N)).
  - intros i j. unfold u at 1. rewrite (K_u M a b c X Y Z D). unfold stationary_K. change (u 12%nat X Y Z) with (snd (SingleBHKS cf M a b c X Y Z) 12%nat). rewrite (alp_u M a b c X Y Z).
    assert (G : forall i j, psi X Y Z ^ 4 * u (s6 i j) X Y Z = delta i j + 2 * (M * Af a b c X Y Z) * Lx a b c X Y Z i * Lx a b c X Y Z j) by (intros; apply (gb_g M a b c X Y Z HM D)).
    assert (BE : forall i, u (13 + n3 i)%nat X Y Z = (1 - sF M a b c X Y Z * sF M a b c X Y Z) * Lx a b c X Y Z i) by (intros; unfold u; now rewrite (beta_u M a b c X Y Z HM D)).
    pose proof (s_sq M a b c HM X Y Z D) as SQ. pose proof (s_pos M a b c HM X Y Z D) as SP. pose proof (unit_l a b c X Y Z D) as U. pose proof (l_dl a b c X Y Z D) as LD. pose proof (dl_l a b c X Y Z D) as DL. pose proof (l_h M a b c X Y Z D) as LH. pose proof (dl_sym a b c X Y Z) as DS. cbv zeta in SQ, SP, U, LD, DL, LH, DS.
    transitivity (S3 (fun k => (1 - sF M a b c X Y Z * sF M a b c X Y Z) * Lx a b c X Y Z k * dgF M a b c k i j X Y Z + (delta k j + 2 * (M * Af a b c X Y Z) * Lx a b c X Y Z k * Lx a b c X Y Z j) * (2 * (sF M a b c X Y Z * sF M a b c X Y Z * (sF M a b c X Y Z * sF M a b c X Y Z)) * kh M (Af a b c X Y Z) (Bf a b c X Y Z) (Px a b c X Y Z) (Qx a b c X Y Z) i * Lx a b c X Y Z k + (1 - sF M a b c X Y Z * sF M a b c X Y Z) * kl (Af a b c X Y Z) (Bf a b c X Y Z) (Lx a b c X Y Z) delta (e2 (Lx a b c X Y Z)) k i) + (delta i k + 2 * (M * Af a b c X Y Z) * Lx a b c X Y Z i * Lx a b c X Y Z k) * (2 * (sF M a b c X Y Z * sF M a b c X Y Z * (sF M a b c X Y Z * sF M a b c X Y Z)) * kh M (Af a b c X Y Z) (Bf a b c X Y Z) (Px a b c X Y Z) (Qx a b c X Y Z) j * Lx a b c X Y Z k + (1 - sF M a b c X Y Z * sF M a b c X Y Z) * kl (Af a b c X Y Z) (Bf a b c X Y Z) (Lx a b c X Y Z) delta (e2 (Lx a b c X Y Z)) k j)) / (2 * sF M a b c X Y Z)).
    2:{ f_equal. apply S3_ext. intros k. rewrite !G, BE. reflexivity. }
    unfold KF, dgF, kK, kc, kdg. revert SQ SP U LD DL LH DS. clear.
    set (s := sF M a b c X Y Z). set (A := Af a b c X Y Z). set (B := Bf a b c X Y Z). set (l := Lx a b c X Y Z). set (K := kl A B l delta (e2 l)). set (h := kh M A B (Px a b c X Y Z) (Qx a b c X Y Z)). clearbody s A B h K l. intros SQ SP U LD DL LH DS.
    assert (T : (1 - s * s) = 2 * (M * A) * (s * s)) by lra.
    transitivity ((2 * ((1 - s * s) * S3 (fun k => l k * h k)) * l i * l j + 2 * ((1 - s * s) * (M * A)) * (S3 (fun k => l k * K i k) * l j + S3 (fun k => l k * K j k) * l i) + 2 * (s * s * (s * s)) * (1 + 2 * (M * A) * S3 (fun k => l k * l k)) * (h i * l j + h j * l i) + (1 - s * s) * (K i j + K j i) + (1 - s * s) * (2 * (M * A)) * (l j * S3 (fun k => l k * K k i) + l i * S3 (fun k => l k * K k j))) / (2 * s)).
    2:{ f_equal. unfold S3. destruct i, j; cbn [delta]; ring. }
    rewrite !LD, !DL, U, LH, DS, T. replace (2 * (s * s * (s * s)) * (1 + 2 * (M * A) * 1)) with (2 * (s * s) * (s * s * (1 + 2 * (M * A)))) by ring. rewrite SQ. field. lra.
Qed.
(** ** the conformal factor *)
Definition no_spin (a b c : R) : Prop := a = 0 /\ b = 0 /\ c = 0.
Lemma off_off0 x y z : off_disc 0 0 0 x y z -> off0 x y z.
Proof. unfold off_disc, wf, a2, rho2, off0. intros [H|H]; [exfalso; apply H; ring|lra]. Qed.
Lemma r_w x y z : off0 x y z -> ks_r 0 0 0 x y z = / w x y z.
Proof.
  intros O. change (rf 0 0 0 x y z = / w x y z). rewrite r_eq, O_eq. unfold wf, a2, w. rewrite Rinv_inv. unfold off0 in O. f_equal. replace ((rho2 x y z - (0 * 0 + 0 * 0 + 0 * 0)) * (rho2 x y z - (0 * 0 + 0 * 0 + 0 * 0)) + 4 * ((0 * x + 0 * y + 0 * z) * (0 * x + 0 * y + 0 * z))) with (rho2 x y z * rho2 x y z) by ring. rewrite sqrt_square by (unfold rho2; lra). unfold rho2. field.
Qed.
Section PSI.
Variables (cf : bool) (M a b c : R).
Hypothesis (HM : 0 <= M) (HS : cf = false \/ no_spin a b c).
(** psi and its derivatives *)
Definition psf : fn3 := fun x y z => if cf then pf (4 * M) x y z else 1.
Definition dpsf (k : d3) : fn3 := fun x y z => if cf then dpf (4 * M) k x y z else 0.
Definition ddpsf (k l : d3) : fn3 := fun x y z => if cf then ddpf (4 * M) k l x y z else 0.
Section P.
Variables (x y z : R).
Hypothesis OD : off_disc a b c x y z.
Lemma spin_case (P : bool -> R -> R -> R -> Prop) : P false a b c -> (off0 x y z -> P true 0 0 0) -> P cf a b c.
Proof. destruct HS as [E|(E1 & E2 & E3)]; [now rewrite E|]. destruct cf; [|auto]. intros _ T. rewrite E1, E2, E3 in *. apply T, off_off0, OD. Qed.
Lemma psi_val : fst (SingleBHKS cf M a b c x y z) 0%nat = psf x y z.
Proof.
  unfold psf. apply (spin_case (fun cf a b c => fst (SingleBHKS cf M a b c x y z) 0%nat = if cf then pf (4 * M) x y z else 1)); [reflexivity|]. intros O. pose proof (w_pos _ _ _ O). cbn. unfold ks_psi. rewrite r_w by auto. unfold pf. field. lra.
Qed.
Lemma psf_pos : 0 < psf x y z.
Proof. rewrite <- psi_val. now apply (psi_pos M a b c x y z HM OD). Qed.
Lemma dpsi_val k : fst (SingleBHKS cf M a b c x y z) (1 + n3 k)%nat * psf x y z = dpsf k x y z.
Proof.
  pose proof psf_pos as PP. unfold psf, dpsf in *. revert PP. apply (spin_case (fun cf a b c => 0 < (if cf then pf (4 * M) x y z else 1) -> fst (SingleBHKS cf M a b c x y z) (1 + n3 k)%nat * (if cf then pf (4 * M) x y z else 1) = if cf then dpf (4 * M) k x y z else 0)).
  - intros _. destruct k; cbn; ring.
  - intros O PP. pose proof (w_pos _ _ _ O) as WP. assert (EP : ks_psi true M 0 0 0 x y z = pf (4 * M) x y z) by (unfold ks_psi; rewrite r_w by auto; unfold pf; field; lra).
    transitivity (-2 * M * co k x y z / (/ w x y z ^ 3 * pf (4 * M) x y z) * pf (4 * M) x y z).
    { f_equal. destruct k; cbn [fst SingleBHKS n3 Nat.add nth co]; unfold ks_dpsiopsi1, ks_dpsiopsi2, ks_dpsiopsi3; rewrite EP, r_w by auto; now rewrite pow_inv. }
    unfold dpf. field. lra.
Qed.
Lemma ddpsi_val k l : fst (SingleBHKS cf M a b c x y z) (4 + s6 k l)%nat * psf x y z = ddpsf k l x y z.
Proof.
  pose proof psf_pos as PP. unfold psf, ddpsf in *. revert PP. apply (spin_case (fun cf a b c => 0 < (if cf then pf (4 * M) x y z else 1) -> fst (SingleBHKS cf M a b c x y z) (4 + s6 k l)%nat * (if cf then pf (4 * M) x y z else 1) = if cf then ddpf (4 * M) k l x y z else 0)).
  - intros _. destruct k, l; cbn; ring.
  - intros O PP. pose proof (w_pos _ _ _ O) as WP. assert (EP : ks_psi true M 0 0 0 x y z = pf (4 * M) x y z) by (unfold ks_psi; rewrite r_w by auto; unfold pf; field; lra).
    destruct k, l; cbn [fst SingleBHKS s6 Nat.add nth]; unfold ks_ddpsiopsi11, ks_ddpsiopsi12, ks_ddpsiopsi13, ks_ddpsiopsi22, ks_ddpsiopsi23, ks_ddpsiopsi33; rewrite EP, r_w by auto; unfold ddpf; cbn [delta co]; field; lra.
Qed.
Lemma d_psf k : pd psf k x y z (dpsf k x y z).
Proof. unfold psf, dpsf. apply (spin_case (fun cf a b c => pd (fun x y z => if cf then pf (4 * M) x y z else 1) k x y z (if cf then dpf (4 * M) k x y z else 0))); [apply pd_const|intros O; now apply (pd_pf (4 * M))]. Qed.
Lemma d_dpsf k l : pd (dpsf k) l x y z (ddpsf k l x y z).
Proof. unfold dpsf, ddpsf. apply (spin_case (fun cf a b c => pd (fun x y z => if cf then dpf (4 * M) k x y z else 0) l x y z (if cf then ddpf (4 * M) k l x y z else 0))); [apply pd_const|intros O; now apply (pd_dpf (4 * M))]. Qed.
End P.
(** without conformal factor, or without spin, the derivatives of psi that the code sets are the derivatives of psi (divided by psi) *)
Theorem C105_psi_partial X Y Z : outside_disc a b c X Y Z ->
  let psi := fun x y z => fst (SingleBHKS cf M a b c x y z) 0%nat in
  0 < psi X Y Z /\ (forall k, pd psi k X Y Z (fst (SingleBHKS cf M a b c X Y Z) (1 + n3 k)%nat * psi X Y Z)) /\
  (forall k l, pd (fun x y z => fst (SingleBHKS cf M a b c x y z) (1 + n3 k)%nat * psi x y z) l X Y Z (fst (SingleBHKS cf M a b c X Y Z) (4 + s6 k l)%nat * psi X Y Z)).
Proof.
  intros D psi. apply disc_eq in D. destruct (off_open _ _ _ _ _ _ D) as (e & He & HO). unfold psi. split; [rewrite psi_val by auto; now apply psf_pos|]. split.
  - intros k. rewrite psi_val, dpsi_val by auto. apply (pd_ext psf _ _ _ _ _ _ e He); [|now apply d_psf]. intros x y z N. symmetry. apply psi_val. now apply HO.
  - intros k l. rewrite (psi_val X Y Z D), ddpsi_val by auto. apply (pd_ext (dpsf k) _ _ _ _ _ _ e He); [|now apply d_dpsf]. intros x y z N. symmetry. rewrite psi_val by now apply HO. apply dpsi_val. now apply HO.
Qed.
End PSI.
(** with spin and conformal factor they are not: the code uses x/r for the derivative of the Kerr radius *)
Theorem C105_psi_spin_refuted : exists M a b c X Y Z, 0 <= M /\ outside_disc a b c X Y Z /\
  let psi := fun x y z => fst (SingleBHKS true M a b c x y z) 0%nat in
  exists d, pd psi D1 X Y Z d /\ d <> fst (SingleBHKS true M a b c X Y Z) 1%nat * psi X Y Z.
Proof.
  exists 1, 0, 0, (3 / 4), (3 / 4), 0, (4 / 5). assert (OD : off_disc 0 0 (3 / 4) (3 / 4) 0 (4 / 5)) by (left; unfold wf; lra). split; [lra|]. split; [exact OD|]. cbv zeta.
  pose proof (r_pos _ _ _ _ _ _ OD) as RP. pose proof (quartic _ _ _ _ _ _ OD) as Q. cbv zeta in RP, Q.
  assert (ER : rf 0 0 (3 / 4) (3 / 4) 0 (4 / 5) = 1). { apply (root_unique (rho2 (3 / 4) 0 (4 / 5) - a2 0 0 (3 / 4)) (wf 0 0 (3 / 4) (3 / 4) 0 (4 / 5))); try lra. unfold rho2, a2, wf. field. }
  assert (P := pd_rf _ _ _ _ _ _ OD D1). exists (-2 * pv 0 0 (3 / 4) D1 (3 / 4) 0 (4 / 5)). split.
  - apply (pd_ext' (fun x y z => 1 + 2 * / rf 0 0 (3 / 4) x y z)); [intros; cbn; unfold ks_psi; unfold rf, Rdiv; ring|]. eapply pd_val; [|apply pd_plus; [apply pd_const|apply (pd_scal 2 (fun x y z => / rf 0 0 (3 / 4) x y z)), pd_inv; [|exact P]]]; cbv beta; rewrite ER; [field|lra].
  - cbn [fst SingleBHKS nth]. unfold ks_dpsiopsi1, ks_psi. change (ks_r 0 0 (3 / 4) (3 / 4) 0 (4 / 5)) with (rf 0 0 (3 / 4) (3 / 4) 0 (4 / 5)). unfold pv, Af, Bf, wf. rewrite ER. cbn [co av]. intros E.
    assert (E1 : -2 * (1 ^ 3 / (1 ^ 4 + (0 * (3 / 4) + 0 * 0 + 3 / 4 * (4 / 5)) ^ 2) * (3 / 4) + 1 * (0 * (3 / 4) + 0 * 0 + 3 / 4 * (4 / 5)) / (1 ^ 4 + (0 * (3 / 4) + 0 * 0 + 3 / 4 * (4 / 5)) ^ 2) * 0) = - 75 / 68) by field.
    rewrite E1 in E. assert (E2 : -2 * 1 * (3 / 4) / (1 ^ 3 * (1 + 2 * 1 / 1)) * (1 + 2 * 1 / 1) = - 3 / 2) by field. rewrite E2 in E. lra.
Qed.
(** ** the constraints *)
(** the functions the code sets on the grid *)
Definition ks_fields (cf : bool) (M a b c : R) (F : geometry) : Prop :=
  (forall x y z, Fpsi F x y z = fst (SingleBHKS cf M a b c x y z) 0%nat) /\ (forall i j x y z, Fg F i j x y z = snd (SingleBHKS cf M a b c x y z) (s6 i j)) /\
  (forall i j x y z, FK F i j x y z = snd (SingleBHKS cf M a b c x y z) (6 + s6 i j)%nat) /\ (forall x y z, Falpha F x y z = snd (SingleBHKS cf M a b c x y z) 12%nat).
(** the constraint code is given the values set, exact derivatives of g, K and alpha, and no matter *)
Definition ks_given (cf : bool) (M a b c : R) (ad : adm_in) (X Y Z : R) (F : geometry) : Prop :=
  (forall n, (n < 10)%nat -> a_psi ad n = fst (SingleBHKS cf M a b c X Y Z) n) /\ (forall n, (n < 16)%nat -> a_u ad n = snd (SingleBHKS cf M a b c X Y Z) n) /\
  (forall k i j, a_dg ad (3 * s6 i j + n3 k) = dg F k i j X Y Z) /\ (forall k l i j, pd (dg F k i j) l X Y Z (a_ddg ad (6 * s6 i j + s6 k l))) /\
  (forall k i j, pd (FK F i j) k X Y Z (a_dK ad (3 * s6 i j + n3 k))) /\ (forall k, a_dalp ad (n3 k) = dalpha F k X Y Z) /\ (forall k l, pd (dalpha F k) l X Y Z (a_ddalp ad (s6 k l))) /\
  a_null ad 16 = true /\ a_null ad 17 = true /\ a_null ad 20 = true.
Section CON.
Variables (cf : bool) (M a b c : R) (ad : adm_in) (X Y Z e : R) (F : geometry).
Hypothesis (HM : 0 <= M) (HS : cf = false \/ no_spin a b c) (He : 0 < e) (HO : forall x y z, near e X Y Z x y z -> outside_disc a b c x y z) (HF : ks_fields cf M a b c F) (HD : derivatives_near e X Y Z F) (HG : ks_given cf M a b c ad X Y Z F).
Let O : off_disc a b c X Y Z := disc_eq _ _ _ _ _ _ (HO X Y Z (near0 e X Y Z He)).
Lemma ks_metric i j x y z : near e X Y Z x y z -> metric F i j x y z = gF M a b c i j x y z.
Proof. intros N. unfold metric. destruct HF as (E1 & E2 & _). rewrite E1, E2. apply gb_g; auto. now apply disc_eq, HO. Qed.
Lemma ks_dpsi k x y z : near e X Y Z x y z -> dpsi F k x y z = dpsf cf M k x y z.
Proof.
  intros N. destruct (inner X Y Z e x y z N) as (e' & E' & S). eapply pd_unique; [apply (HD x y z N)|].
  apply (pd_ext (psf cf M) _ _ _ _ _ _ e' E'); [|apply (d_psf cf M a b c HS x y z), disc_eq, HO, N]. intros u v t N'. destruct HF as (E1 & _). rewrite E1. symmetry. apply (psi_val cf M a b c HS). now apply disc_eq, HO, S.
Qed.
Lemma ks_dalpha k x y z : near e X Y Z x y z -> dalpha F k x y z = daF M a b c k x y z.
Proof.
  intros N. destruct (inner X Y Z e x y z N) as (e' & E' & S). eapply pd_unique; [apply (HD x y z N)|].
  apply (pd_ext (sF M a b c) _ _ _ _ _ _ e' E'); [|apply (d_s M a b c HM x y z), disc_eq, HO, N]. intros u v t N'. destruct HF as (_ & _ & _ & E4). rewrite E4. symmetry. apply alp_u.
Qed.
Theorem C105_setting : setting ad X Y Z e F (giF M a b c) (dgF M a b c).
Proof.
  destruct HG as (G1 & G2 & G3 & G4 & G5 & G6 & G7 & _). pose proof HF as (F1 & F2 & F3 & F4). repeat apply conj; auto.
  - intros x y z N i j. rewrite !F2, !F3. replace (s6 j i) with (s6 i j) by (destruct i, j; reflexivity). auto.
  - rewrite G1, F1 by lia. reflexivity.
  - intros k. rewrite F1, G1 by (destruct k; cbn; lia). rewrite ks_dpsi by now apply near0. rewrite (psi_val cf M a b c HS X Y Z O). now apply (dpsi_val cf M a b c HM HS).
  - intros k l. rewrite F1, G1 by apply n10. rewrite (psi_val cf M a b c HS X Y Z O), (ddpsi_val cf M a b c HM HS X Y Z O). apply (pd_ext (dpsf cf M k) _ _ _ _ _ _ e He); [intros x y z N; now rewrite ks_dpsi|]. now apply (d_dpsf cf M a b c HS).
  - intros i j. rewrite F2, G2 by (pose proof (n16 i j); lia). reflexivity.
  - intros i j. rewrite F3, G2 by apply n16. reflexivity.
  - rewrite F4, G2 by lia. reflexivity.
  - intros x y z N. pose proof (disc_eq _ _ _ _ _ _ (HO x y z N)) as ON. split.
    + intros i j. unfold S3. rewrite !(ks_metric _ _ x y z N). pose proof (s_sq M a b c HM x y z ON) as SQ. pose proof (unit_l a b c x y z ON) as U. cbv zeta in SQ, U. unfold giF, gF, kgi. change (lf a b c ?i x y z) with (Lx a b c x y z i). revert SQ U. set (l := Lx a b c x y z). set (s := sF M a b c x y z). set (h := M * Af a b c x y z). clearbody l s h. intros SQ U.
      transitivity (delta i j + (2 * h - (1 - s * s) - 2 * h * (1 - s * s) * S3 (fun k => l k * l k)) * (l i * l j)); [unfold S3; destruct i, j; cbn [delta]; ring|]. rewrite U. replace (2 * h - (1 - s * s) - 2 * h * (1 - s * s) * 1) with (s * s * (1 + 2 * h) - 1) by ring. rewrite SQ. ring.
    + intros k i j. destruct (inner X Y Z e x y z N) as (e' & E' & S). apply (pd_ext (gF M a b c i j) _ _ _ _ _ _ e' E'); [intros u v t N'; symmetry; now apply ks_metric, S|]. now apply d_g.
Qed.
Theorem C105_constraints : adm_ham ad = 0 /\ adm_mom1 ad = 0 /\ adm_mom2 ad = 0 /\ adm_mom3 ad = 0 /\ adm_dtrKdt ad = 0.
Proof.
  pose proof C105_setting as ST. destruct HG as (G1 & G2 & G3 & G4 & G5 & G6 & G7 & N16 & N17 & N20). pose proof HF as (F1 & F2 & F3 & F4).
  set (A := Af a b c X Y Z). set (B := Bf a b c X Y Z). set (l := Lx a b c X Y Z). set (p := Px a b c X Y Z). set (q := Qx a b c X Y Z). set (s := sF M a b c X Y Z).
  assert (Hg : forall i j, v_ginv ad i j = kgi s l delta i j) by (intros i j; rewrite <- (hi_X _ _ _ _ _ _ _ _ ST); reflexivity).
  assert (Hd : forall k i j, v_dg ad k i j = kdg M A B l p q delta (e2 l) k i j) by (intros k i j; rewrite <- (dh_X _ _ _ _ _ _ _ _ ST); reflexivity).
  assert (Hdd : forall k m i j, v_ddg ad k m i j = kddg M A B l p q delta (e2 l) eps3 k m i j) by (intros k m i j; eapply pd_unique; [apply (ddh_X _ _ _ _ _ _ _ _ ST)|]; now apply d_dg).
  assert (HK : forall i j, i_K ad i j = kK M A B s l p q delta i j) by (intros i j; unfold i_K; rewrite G2 by apply n16; now apply K_u).
  assert (HdK : forall k i j, i_dK ad k i j = kdK M A B s l p q delta (e2 l) k i j). { intros k i j. unfold i_dK. eapply pd_unique; [apply G5|]. apply (pd_ext (KF M a b c i j) _ _ _ _ _ _ e He); [|now apply d_K]. intros x y z N. rewrite F3. symmetry. now apply K_u, disc_eq, HO. }
  assert (EA : forall k, i_dalp ad k = kda M A B s p q k) by (intros k; unfold i_dalp; rewrite G6; apply ks_dalpha; now apply near0).
  assert (EAA : forall k m, i_ddalp ad k m = kdda M A B s p q delta k m). { intros k m. unfold i_ddalp. eapply pd_unique; [apply G7|]. apply (pd_ext (daF M a b c k) _ _ _ _ _ _ e He); [intros x y z N; symmetry; now apply ks_dalpha|]. now apply d_da. }
  assert (EB : forall i, a_u ad (13 + n3 i)%nat = (1 - s * s) * l i) by (intros i; rewrite G2 by (destruct i; cbn; lia); now apply beta_u).
  assert (ES : a_u ad 12%nat = s) by (rewrite G2 by lia; apply alp_u).
  assert (UL : S3 (fun i => l i * l i) = 1) by now apply unit_l. assert (QL : S3 (fun i => q i * l i) = 0) by now apply ql. assert (PL : forall i, p i = l i + S3 (fun j => S3 (fun k => eps3 i j k * q j * l k))) by (intros i; now apply pl). assert (SQ : s * s * (1 + 2 * (M * A)) = 1) by now apply s_sq. assert (AN : A <> 0) by (pose proof (A_pos a b c X Y Z O); unfold A; lra).
  pose proof (vac_ham M A B s l p q UL QL PL SQ AN) as VH. pose proof (vac_mom M A B s l p q UL QL PL SQ AN) as VM. pose proof (vac_dtr M A B s l p q UL QL PL SQ AN) as VD. cbv zeta in VH, VM, VD.
  assert (ECH : forall i j k, v_ga ad i j k = christoffel (kgi s l delta) (kdg M A B l p q delta (e2 l)) i j k). { intros i j k. rewrite <- (G_X _ _ _ _ _ _ _ _ ST). reflexivity. }
  assert (ET : forall T T', (forall i j, T i j = T' i j) -> trace (v_ginv ad) T = trace (kgi s l delta) T') by (intros T T' E; unfold trace, SS, S3; now rewrite !Hg, !E).
  assert (ERIC : forall i j, v_R ad i j = ric_form (kgi s l delta) (kdg M A B l p q delta (e2 l)) (kddg M A B l p q delta (e2 l) eps3) i j).
  { intros i j. assert (S1 : forall m n, v_ginv ad m n = v_ginv ad n m) by (intros m n; destruct m, n; reflexivity).
    assert (S2 : forall k m n, v_dg ad k m n = v_dg ad k n m) by (intros k m n; destruct m, n; reflexivity). assert (S4 : forall k t m n, v_ddg ad k t m n = v_ddg ad k t n m) by (intros k t m n; destruct m, n; reflexivity). assert (S5 : forall k t m n, v_ddg ad k t m n = v_ddg ad t k m n) by (intros k t m n; destruct k, t; reflexivity).
    assert (RI : forall i j, (n3 j <= n3 i)%nat -> v_R ad i j = ric_form (v_ginv ad) (v_dg ad) (v_ddg ad) i j). { intros m n L. rewrite (R_i ad m n L). unfold ric_form, SS. apply S3_ext; intros u. apply S3_ext; intros v. f_equal. f_equal. apply S3_ext; intros t. rewrite !gd_i, !ga_i. unfold christoffel, S3. rewrite !gd_i. rewrite !(S2 u _ m), !(S2 n _ m), !(S2 m _ u), !(S2 m _ n). field. }
    transitivity (ric_form (v_ginv ad) (v_dg ad) (v_ddg ad) i j). { destruct (Nat.le_ge_cases (n3 j) (n3 i)) as [L|L]; [now apply RI|]. rewrite ric_form_sym; auto. rewrite <- RI by auto. destruct i, j; reflexivity. }
    unfold ric_form, christoffel, SS, S3. rewrite !Hg, !Hd, !Hdd. reflexivity. }
  assert (ER : adm_R ad = trace (kgi s l delta) (ric_form (kgi s l delta) (kdg M A B l p q delta (e2 l)) (kddg M A B l p q delta (e2 l) eps3))) by (rewrite Rs_i; now apply ET).
  assert (EK : adm_K ad = trace (kgi s l delta) (kK M A B s l p q delta)) by (rewrite K_s; now apply ET).
  assert (EKK : adm_KudKud ad = square (kgi s l delta) (kK M A B s l p q delta)) by (rewrite KK_s; unfold square, SS, S3; now rewrite !Hg, !HK).
  assert (ECV : forall k i j, cov (v_ga ad) (i_K ad) (i_dK ad) k i j = cov (christoffel (kgi s l delta) (kdg M A B l p q delta (e2 l))) (kK M A B s l p q delta) (kdK M A B s l p q delta (e2 l)) k i j) by (intros; unfold cov, S3; now rewrite !ECH, !HK, !HdK).
  assert (EM : forall i, v_mom ad i = 0).
  { intros i. rewrite (mom_X _ _ _ _ _ _ _ _ ST). assert (MR : momrhs ad i = 0) by (destruct i; cbn [momrhs]; unfold adm_momrhs1_3, adm_momrhs2_3, adm_momrhs3_3; now rewrite N17). rewrite MR, Rminus_0_r. rewrite <- (VM i). unfold momentum, SS, S3. now rewrite !Hg, !ECV. }
  split; [unfold adm_ham, pow2, adm_hamrhs_3; rewrite N16; unfold adm_hamrhs; rewrite ER, EK, EKK; refine (eq_trans _ VH); ring|].
  split; [exact (EM D1)|]. split; [exact (EM D2)|]. split; [exact (EM D3)|].
  unfold adm_dtrKdt, adm_Sminus3rho_3, pow2. rewrite N20. change (adm_Sminus3rho ad) with 0. change (adm_alpha ad) with (a_u ad 12%nat). rewrite ES, ER, EK, trcdda_i, bdtrK_i.
  rewrite (ET (v_cdda ad) (hessian (christoffel (kgi s l delta) (kdg M A B l p q delta (e2 l))) (kda M A B s p q) (kdda M A B s p q delta))) by (intros i j; rewrite cdda_i; unfold hessian, S3; now rewrite !ECH, !EA, !EAA).
  assert (EDT : S3 (fun k => a_u ad (13 + n3 k)%nat * v_dtrK ad k) = S3 (fun k => (1 - s * s) * l k * trace (kgi s l delta) (fun i j => cov (christoffel (kgi s l delta) (kdg M A B l p q delta (e2 l))) (kK M A B s l p q delta) (kdK M A B s l p q delta (e2 l)) k i j))).
  { apply S3_ext. intros k. rewrite EB, dtrK_i. f_equal. apply ET. intros i j. now rewrite cK_i. }
  rewrite EDT. refine (eq_trans _ VD). ring.
Qed.
End CON.
(** ** cases: a hole of mass 1 with spin (0,0,3/4) at (3/4,0,4/5); and a hole of mass 1 without spin at (2,1,2), with conformal factor *)
Definition php (cf : bool) (M : R) : fn3 := fun x y z => / (psf cf M x y z ^ 4).
Definition dphp (cf : bool) (M : R) (k : d3) : fn3 := fun x y z => (- 4) * (dpsf cf M k x y z / psf cf M x y z ^ 5).
Definition ddphp (cf : bool) (M : R) (k l : d3) : fn3 := fun x y z => 20 * (dpsf cf M k x y z * dpsf cf M l x y z) / psf cf M x y z ^ 6 - 4 * ddpsf cf M k l x y z / psf cf M x y z ^ 5.
Definition ks_geo (cf : bool) (M a b c : R) : geometry :=
  MkGeo (fun x y z => fst (SingleBHKS cf M a b c x y z) 0%nat) (fun i j x y z => snd (SingleBHKS cf M a b c x y z) (s6 i j)) (fun i j x y z => snd (SingleBHKS cf M a b c x y z) (6 + s6 i j)%nat) (fun x y z => snd (SingleBHKS cf M a b c x y z) 12%nat)
    (dpsf cf M) (fun k i j x y z => dgF M a b c k i j x y z * php cf M x y z + gF M a b c i j x y z * dphp cf M k x y z) (daF M a b c).
Definition ddgb (cf : bool) (M a b c : R) (k m i j : d3) (X Y Z : R) : R :=
  kddg M (Af a b c X Y Z) (Bf a b c X Y Z) (Lx a b c X Y Z) (Px a b c X Y Z) (Qx a b c X Y Z) delta (e2 (Lx a b c X Y Z)) eps3 k m i j * php cf M X Y Z + dgF M a b c k i j X Y Z * dphp cf M m X Y Z
  + (dgF M a b c m i j X Y Z * dphp cf M k X Y Z + gF M a b c i j X Y Z * ddphp cf M k m X Y Z).
Definition ks_in (cf : bool) (M a b c X Y Z : R) : adm_in :=
  let l3 (h : d3 -> R) := [h D1; h D2; h D3] in let l6 (h : d3 -> d3 -> R) := [h D1 D1; h D1 D2; h D1 D3; h D2 D2; h D2 D3; h D3 D3] in
  let c3 (h : d3 -> d3 -> d3 -> R) := l3 (fun k => h k D1 D1) ++ l3 (fun k => h k D1 D2) ++ l3 (fun k => h k D1 D3) ++ l3 (fun k => h k D2 D2) ++ l3 (fun k => h k D2 D3) ++ l3 (fun k => h k D3 D3) in
  let c6 (h : d3 -> d3 -> d3 -> d3 -> R) := l6 (fun k m => h k m D1 D1) ++ l6 (fun k m => h k m D1 D2) ++ l6 (fun k m => h k m D1 D3) ++ l6 (fun k m => h k m D2 D2) ++ l6 (fun k m => h k m D2 D3) ++ l6 (fun k m => h k m D3 D3) in
  MkAdm (fst (SingleBHKS cf M a b c X Y Z)) (snd (SingleBHKS cf M a b c X Y Z))
    (fun n => nth n (c3 (fun k i j => dg (ks_geo cf M a b c) k i j X Y Z)) 0) (fun n => nth n (c6 (fun k m i j => ddgb cf M a b c k m i j X Y Z)) 0)
    (fun n => nth n (c3 (fun k i j => kdK M (Af a b c X Y Z) (Bf a b c X Y Z) (sF M a b c X Y Z) (Lx a b c X Y Z) (Px a b c X Y Z) (Qx a b c X Y Z) delta (e2 (Lx a b c X Y Z)) k i j)) 0)
    (fun n => nth n (l3 (fun k => daF M a b c k X Y Z)) 0) (fun n => nth n (l6 (fun k m => kdda M (Af a b c X Y Z) (Bf a b c X Y Z) (sF M a b c X Y Z) (Px a b c X Y Z) (Qx a b c X Y Z) delta k m)) 0) (fun _ => true) false false.
Section EX.
Variables (cf : bool) (M a b c X Y Z e : R).
Hypothesis (HM : 0 <= M) (HS : cf = false \/ no_spin a b c) (He : 0 < e) (HO : forall x y z, near e X Y Z x y z -> outside_disc a b c x y z).
Hypothesis SYM : forall i k m, kll (Af a b c X Y Z) (Bf a b c X Y Z) (Lx a b c X Y Z) (Px a b c X Y Z) (Qx a b c X Y Z) delta (e2 (Lx a b c X Y Z)) eps3 i k m = kll (Af a b c X Y Z) (Bf a b c X Y Z) (Lx a b c X Y Z) (Px a b c X Y Z) (Qx a b c X Y Z) delta (e2 (Lx a b c X Y Z)) eps3 i m k.
Let O : off_disc a b c X Y Z := disc_eq _ _ _ _ _ _ (HO X Y Z (near0 e X Y Z He)).
Lemma d_php k x y z : off_disc a b c x y z -> pd (php cf M) k x y z (dphp cf M k x y z).
Proof. intros OD. pose proof (psf_pos cf M a b c HM HS x y z OD) as PP. unfold php, dphp. eapply pd_val; [|apply (pd_inv (fun x y z => psf cf M x y z ^ 4)); [cbv beta; apply pow_nonzero; lra|apply pd_pow4, (d_psf cf M a b c HS), OD]]. cbv beta. field. lra. Qed.
Lemma pd_pow5 (f : fn3) k x y z l : pd f k x y z l -> pd (fun x y z => f x y z ^ 5) k x y z (5 * f x y z ^ 4 * l).
Proof. intros D. eapply pd_val; [|apply (pd_ext' (fun x y z => f x y z * f x y z ^ 4)); [intros; ring|apply pd_mult; [exact D|apply pd_pow4, D]]]. cbv beta. ring. Qed.
Lemma d_dphp k m : pd (dphp cf M k) m X Y Z (ddphp cf M k m X Y Z).
Proof.
  pose proof (psf_pos cf M a b c HM HS X Y Z O) as PP. unfold dphp, ddphp. eapply pd_val; [|apply pd_scal, (pd_div (dpsf cf M k) (fun x y z => psf cf M x y z ^ 5)); [cbv beta; apply pow_nonzero; lra|apply (d_dpsf cf M a b c HS), O|apply pd_pow5, (d_psf cf M a b c HS), O]]. cbv beta. field. lra.
Qed.
Lemma gb_php i j x y z : off_disc a b c x y z -> snd (SingleBHKS cf M a b c x y z) (s6 i j) = gF M a b c i j x y z * php cf M x y z.
Proof. intros OD. pose proof (psf_pos cf M a b c HM HS x y z OD) as PP. rewrite <- (gb_g M a b c x y z HM OD cf), (psi_val cf M a b c HS x y z OD). unfold php. field. lra. Qed.
Lemma ks_fields_geo : ks_fields cf M a b c (ks_geo cf M a b c). Proof. repeat split. Qed.
Lemma ks_deriv : derivatives_near e X Y Z (ks_geo cf M a b c).
Proof.
  intros x y z N. destruct (inner X Y Z e x y z N) as (e' & E' & S). pose proof (disc_eq _ _ _ _ _ _ (HO _ _ _ N)) as OD. cbn [Fpsi dpsi Fg dg Falpha dalpha ks_geo]. repeat apply conj; intros.
  - apply (pd_ext (psf cf M) _ _ _ _ _ _ e' E'); [intros u v t N'; symmetry; now apply (psi_val cf M a b c HS), disc_eq, HO, S|]. now apply (d_psf cf M a b c HS).
  - apply (pd_ext (fun x y z => gF M a b c i j x y z * php cf M x y z) _ _ _ _ _ _ e' E'); [intros u v t N'; symmetry; now apply gb_php, disc_eq, HO, S|]. apply pd_mult; [now apply d_g|now apply d_php].
  - apply (pd_ext (sF M a b c) _ _ _ _ _ _ e' E'); [intros u v t N'; symmetry; apply alp_u|now apply d_s].
Qed.
Lemma ddgb_sym k m i j : ddgb cf M a b c k m i j X Y Z = ddgb cf M a b c m k i j X Y Z.
Proof.
  unfold ddgb. assert (E1 : ddphp cf M k m X Y Z = ddphp cf M m k X Y Z). { unfold ddphp. replace (ddpsf cf M m k X Y Z) with (ddpsf cf M k m X Y Z) by (unfold ddpsf; destruct cf; auto; apply dd_sym). unfold Rdiv. ring. }
  rewrite E1. unfold kddg. rewrite !(SYM _ m k). assert (E2 : khh M (Af a b c X Y Z) (Bf a b c X Y Z) (Px a b c X Y Z) (Qx a b c X Y Z) delta k m = khh M (Af a b c X Y Z) (Bf a b c X Y Z) (Px a b c X Y Z) (Qx a b c X Y Z) delta m k) by (unfold khh, kp, kq, kA, kB; destruct k, m; cbn [delta]; ring). rewrite E2. ring.
Qed.
Lemma kdda_sym k m : kdda M (Af a b c X Y Z) (Bf a b c X Y Z) (sF M a b c X Y Z) (Px a b c X Y Z) (Qx a b c X Y Z) delta k m = kdda M (Af a b c X Y Z) (Bf a b c X Y Z) (sF M a b c X Y Z) (Px a b c X Y Z) (Qx a b c X Y Z) delta m k.
Proof. unfold kdda, khh, kp, kq, kA, kB. destruct k, m; cbn [delta]; ring. Qed.
Lemma ddgb_ij k m i j : ddgb cf M a b c k m i j X Y Z = ddgb cf M a b c k m j i X Y Z.
Proof. unfold ddgb, kddg, dgF, kdg, gF. assert (D : delta i j = delta j i) by (destruct i, j; reflexivity). rewrite D. ring. Qed.
Lemma ks_ok : ks_given cf M a b c (ks_in cf M a b c X Y Z) X Y Z (ks_geo cf M a b c).
Proof.
  unfold ks_given. repeat apply conj; auto.
  - assert (SD : forall k i j, dg (ks_geo cf M a b c) k i j X Y Z = dg (ks_geo cf M a b c) k j i X Y Z). { intros k i j. cbn [dg ks_geo]. unfold dgF, kdg, gF. assert (D : delta i j = delta j i) by (destruct i, j; reflexivity). rewrite D. ring. }
    intros k i j. unfold ks_in. cbv zeta. cbn [a_dg]. destruct i, j, k; cbn [s6 n3 Nat.mul Nat.add nth app]; first [reflexivity | apply SD].
  - intros k m i j. cbn [dg ks_geo]. eapply pd_val; [|apply pd_plus; [apply pd_mult; [apply (d_dg M a b c X Y Z O)|apply (d_php m _ _ _ O)]|apply pd_mult; [apply (d_g M a b c X Y Z O)|apply d_dphp]]].
    transitivity (ddgb cf M a b c k m i j X Y Z); [unfold ddgb; ring|]. unfold ks_in. cbv zeta. cbn [a_ddg]. destruct i, j, k, m; cbn [s6 Nat.mul Nat.add nth app]; first [reflexivity | apply ddgb_sym | apply ddgb_ij | (rewrite ddgb_sym; apply ddgb_ij)].
  - intros k i j. eapply pd_val; [|apply (pd_ext (KF M a b c i j) _ _ _ _ _ _ e He); [|now apply (d_K M a b c HM X Y Z O)]].
    + assert (SK : forall k i j, kdK M (Af a b c X Y Z) (Bf a b c X Y Z) (sF M a b c X Y Z) (Lx a b c X Y Z) (Px a b c X Y Z) (Qx a b c X Y Z) delta (e2 (Lx a b c X Y Z)) k i j = kdK M (Af a b c X Y Z) (Bf a b c X Y Z) (sF M a b c X Y Z) (Lx a b c X Y Z) (Px a b c X Y Z) (Qx a b c X Y Z) delta (e2 (Lx a b c X Y Z)) k j i). { clear. intros k i j. unfold kdK, kdc, kc. assert (D : delta i j = delta j i) by (destruct i, j; reflexivity). rewrite D. ring. }
      unfold ks_in. cbv zeta. cbn [a_dK]. destruct i, j, k; cbn [s6 n3 Nat.mul Nat.add nth app]; first [reflexivity | apply SK].
    + intros x y z N. symmetry. cbn [FK ks_geo]. now apply K_u, disc_eq, HO.
  - intros k. destruct k; reflexivity.
  - intros k m. eapply pd_val; [|apply (d_da M a b c HM X Y Z O)]. unfold ks_in. cbv zeta. cbn [a_ddalp]. destruct k, m; cbn [s6 nth]; first [reflexivity | apply kdda_sym].
Qed.
End EX.
Lemma near_x e X Y Z x y z : near e X Y Z x y z -> X - e < x < X + e /\ Y - e < y < Y + e /\ Z - e < z < Z + e.
Proof. intros (N1 & N2 & N3). apply Rabs_def2 in N1, N2, N3. lra. Qed.
Example C105_ex_spin : let F := ks_geo false 1 0 0 (3 / 4) in let ad := ks_in false 1 0 0 (3 / 4) (3 / 4) 0 (4 / 5) in
  kerr_radius 0 0 (3 / 4) (3 / 4) 0 (4 / 5) 1 /\ setting ad (3 / 4) 0 (4 / 5) (1 / 2) F (giF 1 0 0 (3 / 4)) (dgF 1 0 0 (3 / 4)) /\ adm_ham ad = 0 /\ adm_mom2 ad = 0 /\ adm_dtrKdt ad = 0 /\ a_u ad 1%nat = - 108 / 425.
Proof.
  cbv zeta. assert (OD : off_disc 0 0 (3 / 4) (3 / 4) 0 (4 / 5)) by (left; unfold wf; lra). assert (HO : forall x y z, near (1 / 2) (3 / 4) 0 (4 / 5) x y z -> outside_disc 0 0 (3 / 4) x y z) by (intros x y z N; apply near_x in N; left; lra).
  pose proof (r_pos _ _ _ _ _ _ OD) as RP. pose proof (quartic _ _ _ _ _ _ OD) as Q. cbv zeta in RP, Q.
  assert (ER : rf 0 0 (3 / 4) (3 / 4) 0 (4 / 5) = 1). { apply (root_unique (rho2 (3 / 4) 0 (4 / 5) - a2 0 0 (3 / 4)) (wf 0 0 (3 / 4) (3 / 4) 0 (4 / 5))); try lra. unfold rho2, a2, wf. field. }
  assert (EA : Af 0 0 (3 / 4) (3 / 4) 0 (4 / 5) = 25 / 34) by (unfold Af, wf; rewrite ER; field). assert (EB : Bf 0 0 (3 / 4) (3 / 4) 0 (4 / 5) = 15 / 34) by (unfold Bf, wf; rewrite ER; field).
  assert (EL : forall i, Lx 0 0 (3 / 4) (3 / 4) 0 (4 / 5) i = match i with D1 => 12 / 25 | D2 => - 9 / 25 | D3 => 4 / 5 end) by (intros i; unfold Lx, lf, wf, a2; rewrite ER; destruct i; cbn [av cr co]; field).
  assert (EP : forall i, Px 0 0 (3 / 4) (3 / 4) 0 (4 / 5) i = match i with D1 => 75 / 136 | D2 => 0 | D3 => 125 / 136 end) by (intros i; unfold Px, pv; rewrite EA, EB; destruct i; cbn [av co]; field).
  assert (EQ : forall i, Qx 0 0 (3 / 4) (3 / 4) 0 (4 / 5) i = match i with D1 => - 45 / 136 | D2 => 0 | D3 => 27 / 136 end) by (intros i; unfold Qx, qv; rewrite EA, EB; destruct i; cbn [av co]; field).
  assert (SYM : forall i k m, kll (Af 0 0 (3 / 4) (3 / 4) 0 (4 / 5)) (Bf 0 0 (3 / 4) (3 / 4) 0 (4 / 5)) (Lx 0 0 (3 / 4) (3 / 4) 0 (4 / 5)) (Px 0 0 (3 / 4) (3 / 4) 0 (4 / 5)) (Qx 0 0 (3 / 4) (3 / 4) 0 (4 / 5)) delta (e2 (Lx 0 0 (3 / 4) (3 / 4) 0 (4 / 5))) eps3 i k m = kll (Af 0 0 (3 / 4) (3 / 4) 0 (4 / 5)) (Bf 0 0 (3 / 4) (3 / 4) 0 (4 / 5)) (Lx 0 0 (3 / 4) (3 / 4) 0 (4 / 5)) (Px 0 0 (3 / 4) (3 / 4) 0 (4 / 5)) (Qx 0 0 (3 / 4) (3 / 4) 0 (4 / 5)) delta (e2 (Lx 0 0 (3 / 4) (3 / 4) 0 (4 / 5))) eps3 i m k).
  { intros i k m. unfold kll, kl, kA, kB, e2, S3. rewrite EA, EB, !EL, !EP, !EQ. destruct i, k, m; cbn [delta eps3]; field. }
  assert (HS : false = false \/ no_spin 0 0 (3 / 4)) by now left.
  pose proof (ks_fields_geo false 1 0 0 (3 / 4)) as F. pose proof (ks_deriv false 1 0 0 (3 / 4) (3 / 4) 0 (4 / 5) (1 / 2) ltac:(lra) HS HO) as D. pose proof (ks_ok false 1 0 0 (3 / 4) (3 / 4) 0 (4 / 5) (1 / 2) ltac:(lra) HS ltac:(lra) HO SYM) as G.
  split; [split; [lra|field]|]. split; [apply (C105_setting false 1 0 0 (3 / 4)); auto; lra|]. pose proof (C105_constraints false 1 0 0 (3 / 4) _ (3 / 4) 0 (4 / 5) (1 / 2) _ ltac:(lra) HS ltac:(lra) HO F D G) as (E1 & _ & E3 & _ & E5). split; [exact E1|]. split; [exact E3|]. split; [exact E5|].
  assert (GB := gb_php false 1 0 0 (3 / 4) ltac:(lra) HS D1 D2 (3 / 4) 0 (4 / 5) OD). cbn [s6] in GB. cbn [a_u ks_in]. rewrite GB. unfold php, psf, gF. rewrite EA. change (lf 0 0 (3 / 4) ?i (3 / 4) 0 (4 / 5)) with (Lx 0 0 (3 / 4) (3 / 4) 0 (4 / 5) i). rewrite !EL. cbn [delta]. field.
Qed.
Example C105_ex_cf : let F := ks_geo true 1 0 0 0 in let ad := ks_in true 1 0 0 0 2 1 2 in
  setting ad 2 1 2 1 F (giF 1 0 0 0) (dgF 1 0 0 0) /\ adm_ham ad = 0 /\ adm_mom2 ad = 0 /\ adm_dtrKdt ad = 0 /\ a_psi ad 0%nat = 5 / 3.
Proof.
  cbv zeta. assert (OD : off_disc 0 0 0 2 1 2) by (right; unfold a2, rho2; lra). assert (HO : forall x y z, near 1 2 1 2 x y z -> outside_disc 0 0 0 x y z) by (intros x y z N; apply near_x in N; right; nra).
  pose proof (r_pos _ _ _ _ _ _ OD) as RP. pose proof (quartic _ _ _ _ _ _ OD) as Q. cbv zeta in RP, Q.
  assert (ER : rf 0 0 0 2 1 2 = 3). { apply (root_unique (rho2 2 1 2 - a2 0 0 0) (wf 0 0 0 2 1 2)); try lra. unfold rho2, a2, wf. field. }
  assert (EA : Af 0 0 0 2 1 2 = 1 / 3) by (unfold Af, wf; rewrite ER; field). assert (EB : Bf 0 0 0 2 1 2 = 0) by (unfold Bf, wf; rewrite ER; field).
  assert (EL : forall i, Lx 0 0 0 2 1 2 i = match i with D1 => 2 / 3 | D2 => 1 / 3 | D3 => 2 / 3 end) by (intros i; unfold Lx, lf, wf, a2; rewrite ER; destruct i; cbn [av cr co]; field).
  assert (EP : forall i, Px 0 0 0 2 1 2 i = match i with D1 => 2 / 3 | D2 => 1 / 3 | D3 => 2 / 3 end) by (intros i; unfold Px, pv; rewrite EA, EB; destruct i; cbn [av co]; field).
  assert (EQ : forall i, Qx 0 0 0 2 1 2 i = 0) by (intros i; unfold Qx, qv; rewrite EA, EB; destruct i; cbn [av co]; field).
  assert (SYM : forall i k m, kll (Af 0 0 0 2 1 2) (Bf 0 0 0 2 1 2) (Lx 0 0 0 2 1 2) (Px 0 0 0 2 1 2) (Qx 0 0 0 2 1 2) delta (e2 (Lx 0 0 0 2 1 2)) eps3 i k m = kll (Af 0 0 0 2 1 2) (Bf 0 0 0 2 1 2) (Lx 0 0 0 2 1 2) (Px 0 0 0 2 1 2) (Qx 0 0 0 2 1 2) delta (e2 (Lx 0 0 0 2 1 2)) eps3 i m k).
  { intros i k m. unfold kll, kl, kA, kB, e2, S3. rewrite EA, EB, !EL, !EP, !EQ. destruct i, k, m; cbn [delta eps3]; field. }
  assert (HS : true = false \/ no_spin 0 0 0) by (right; repeat split).
  pose proof (ks_fields_geo true 1 0 0 0) as F. pose proof (ks_deriv true 1 0 0 0 2 1 2 1 ltac:(lra) HS HO) as D. pose proof (ks_ok true 1 0 0 0 2 1 2 1 ltac:(lra) HS ltac:(lra) HO SYM) as G.
  split; [apply (C105_setting true 1 0 0 0); auto; lra|]. pose proof (C105_constraints true 1 0 0 0 _ 2 1 2 1 _ ltac:(lra) HS ltac:(lra) HO F D G) as (E1 & _ & E3 & _ & E5). split; [exact E1|]. split; [exact E3|]. split; [exact E5|].
  cbn [a_psi ks_in]. change (1 + 2 * 1 / rf 0 0 0 2 1 2 = 5 / 3). rewrite ER. field.
Qed.
Print Assumptions C105_metric.
Print Assumptions C105_curvature.
Print Assumptions C105_psi_partial.
Print Assumptions C105_psi_spin_refuted.
Print Assumptions C105_constraints.
