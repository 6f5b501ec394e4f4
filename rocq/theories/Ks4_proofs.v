(** What SingleBHKS sets, written with the functions of Ks_proofs.v, and the derivatives of these functions. *)
From Verif Require Import Rutil Coord_model Coord_spec Adm_model Adm_spec Adm_proofs Adm2_proofs Adm_props Bh_model Bh_proofs Ks_model Ks_proofs Frame_proofs Ks2_proofs Ks3_proofs.
From Coq Require Import List Lia.
Import ListNotations.
Local Open Scope R_scope.
Section K.
Variables (M Sx Sy Sz : R).
Hypothesis HM : 0 <= M.
Notation AF := (Af Sx Sy Sz). Notation BF := (Bf Sx Sy Sz). Notation LF := (lf Sx Sy Sz). Notation PF := (pv Sx Sy Sz). Notation QF := (qv Sx Sy Sz). Notation off := (off_disc Sx Sy Sz).
Definition Lx (x y z : R) (i : d3) : R := LF i x y z.
Definition Px (x y z : R) (i : d3) : R := PF i x y z.
Definition Qx (x y z : R) (i : d3) : R := QF i x y z.
Definition sF : fn3 := fun x y z => 1 / sqrt (1 + 2 * (M * AF x y z)).
Definition gF (i j : d3) : fn3 := fun x y z => delta i j + 2 * (M * AF x y z) * LF i x y z * LF j x y z.
Definition giF (i j : d3) : fn3 := fun x y z => kgi (sF x y z) (Lx x y z) delta i j.
Definition hF (k : d3) : fn3 := fun x y z => kh M (AF x y z) (BF x y z) (Px x y z) (Qx x y z) k.
Definition lF' (i k : d3) : fn3 := fun x y z => kl (AF x y z) (BF x y z) (Lx x y z) delta (e2 (Lx x y z)) i k.
Definition dgF (k i j : d3) : fn3 := fun x y z => kdg M (AF x y z) (BF x y z) (Lx x y z) (Px x y z) (Qx x y z) delta (e2 (Lx x y z)) k i j.
Definition cF (i j : d3) : fn3 := fun x y z => kc M (AF x y z) (BF x y z) (Lx x y z) (Px x y z) (Qx x y z) delta i j.
Definition KF (i j : d3) : fn3 := fun x y z => kK M (AF x y z) (BF x y z) (sF x y z) (Lx x y z) (Px x y z) (Qx x y z) delta i j.
Definition daF (k : d3) : fn3 := fun x y z => kda M (AF x y z) (BF x y z) (sF x y z) (Px x y z) (Qx x y z) k.
Definition bF (i : d3) : fn3 := fun x y z => (1 - sF x y z * sF x y z) * LF i x y z.
Section PT.
Variables (X Y Z : R).
Hypothesis OD : off X Y Z.
Let A := AF X Y Z. Let B := BF X Y Z. Let s := sF X Y Z. Let l := Lx X Y Z. Let p := Px X Y Z. Let q := Qx X Y Z.
Lemma A_pos : 0 < A.
Proof. unfold A, Af. pose proof (r_pos _ _ _ _ _ _ OD) as RP. pose proof (N_pos _ _ _ _ _ _ OD) as NP. cbv zeta in RP, NP. unfold Rdiv. apply Rmult_lt_0_compat; [now apply pow_lt|now apply Rinv_0_lt_compat]. Qed.
Lemma H_nn : 0 < 1 + 2 * (M * A).
Proof. pose proof A_pos. assert (0 <= M * A) by (apply Rmult_le_pos; lra). lra. Qed.
Lemma s_sq : s * s * (1 + 2 * (M * A)) = 1.
Proof. pose proof H_nn as HN. unfold s, sF. fold A. assert (SP : 0 < sqrt (1 + 2 * (M * A))) by now apply sqrt_lt_R0. transitivity ((1 + 2 * (M * A)) / (sqrt (1 + 2 * (M * A)) * sqrt (1 + 2 * (M * A)))); [field; lra|]. rewrite sqrt_sqrt by lra. field. lra. Qed.
Lemma s_pos : 0 < s.
Proof. unfold s, sF. fold A. unfold Rdiv. rewrite Rmult_1_l. apply Rinv_0_lt_compat, sqrt_lt_R0, H_nn. Qed.
Lemma unit_l : S3 (fun i => l i * l i) = 1. Proof. apply (l_unit _ _ _ _ _ _ OD). Qed.
Lemma ql : S3 (fun i => q i * l i) = 0. Proof. apply (q_l _ _ _ _ _ _ OD). Qed.
Lemma pl i : p i = l i + S3 (fun j => S3 (fun k => eps3 i j k * q j * l k)). Proof. apply (p_l _ _ _ _ _ _ OD). Qed.
Lemma lp : S3 (fun i => l i * p i) = 1.
Proof. transitivity (S3 (fun i => l i * l i)); [|apply unit_l]. unfold S3. rewrite !pl. unfold S3. cbn [eps3]. ring. Qed.
Lemma l_h : S3 (fun i => l i * kh M A B p q i) = - M * (A * A - B * B).
Proof. transitivity (- M * (A * A - B * B) * S3 (fun i => l i * p i) - 2 * M * A * B * S3 (fun i => q i * l i)); [unfold kh, kA, S3; ring|]. rewrite lp, ql. ring. Qed.
Lemma l_dl i : S3 (fun c => l c * kl A B l delta (e2 l) i c) = 0.
Proof. transitivity (A * l i * (1 - S3 (fun i => l i * l i))); [|rewrite unit_l; ring]. unfold kl, e2, S3. destruct i; cbn [delta eps3]; ring. Qed.
Lemma dl_l i : S3 (fun c => l c * kl A B l delta (e2 l) c i) = 0.
Proof. transitivity (A * l i * (1 - S3 (fun i => l i * l i))); [|rewrite unit_l; ring]. unfold kl, e2, S3. destruct i; cbn [delta eps3]; ring. Qed.
Lemma dl_sym i j : kl A B l delta (e2 l) i j + kl A B l delta (e2 l) j i = 2 * (A * (delta i j - l i * l j)).
Proof. unfold kl, e2, S3. destruct i, j; cbn [delta eps3]; ring. Qed.
(** ** derivatives *)
Lemma d_A k : pd AF k X Y Z (kA A B p q k). Proof. apply (pd_Af _ _ _ _ _ _ OD). Qed.
Lemma d_B k : pd BF k X Y Z (kB A B p q k). Proof. apply (pd_Bf _ _ _ _ _ _ OD). Qed.
Lemma d_L i k : pd (LF i) k X Y Z (kl A B l delta (e2 l) i k). Proof. apply (pd_lf _ _ _ _ _ _ OD). Qed.
Lemma d_P i k : pd (PF i) k X Y Z (kp A B p q delta i k).
Proof. unfold pv. eapply pd_val; [|apply pd_plus; [apply (pd_mult AF (co i)); [apply d_A|apply pd_co]|apply (pd_mult BF (fun _ _ _ => av Sx Sy Sz i)); [apply d_B|apply pd_const]]]. cbv beta. unfold kp, kA, kB, p, q, Px, Qx, pv, qv. fold A B. ring. Qed.
Lemma d_Q i k : pd (QF i) k X Y Z (kq A B p q delta i k).
Proof. unfold qv. eapply pd_val; [|apply pd_minus; [apply (pd_mult AF (fun _ _ _ => av Sx Sy Sz i)); [apply d_A|apply pd_const]|apply (pd_mult BF (co i)); [apply d_B|apply pd_co]]]. cbv beta. unfold kq, kA, kB, p, q, Px, Qx, pv, qv. fold A B. ring. Qed.
Lemma d_s k : pd sF k X Y Z (kda M A B s p q k).
Proof.
  pose proof H_nn as HN. assert (SP : 0 < sqrt (1 + 2 * (M * A))) by now apply sqrt_lt_R0. unfold sF. eapply pd_val; [|apply (pd_div (fun _ _ _ => 1) (fun x y z => sqrt (1 + 2 * (M * AF x y z)))); [|apply pd_const|apply (pd_sqrt (fun x y z => 1 + 2 * (M * AF x y z))); [|apply (pd_plus (fun _ _ _ => 1) (fun x y z => 2 * (M * AF x y z))); [apply pd_const|apply (pd_scal 2 (fun x y z => M * AF x y z)), (pd_scal M AF), d_A]]]]; cbv beta; fold A; [|lra|lra].
  unfold kda, kh, s, sF. fold A. field. lra.
Qed.
Ltac pdt leaf := first [apply pd_const | leaf | (apply pd_plus; pdt leaf) | (apply pd_minus; pdt leaf) | (apply pd_mult; pdt leaf)].
Lemma d_h k m : pd (hF k) m X Y Z (khh M A B p q delta k m).
Proof.
  apply (pd_ext' (fun x y z => M * ((BF x y z * BF x y z - AF x y z * AF x y z) * PF k x y z - 2 * AF x y z * BF x y z * QF k x y z))); [intros; unfold hF, kh, kA, Px, Qx; ring|].
  eapply pd_val; [|pdt ltac:(first [apply d_A | apply d_B | apply d_P | apply d_Q])]. cbv beta. unfold khh. fold (Px X Y Z k) (Qx X Y Z k). fold p q A B. ring.
Qed.
Lemma d_e2 i k m : pd (fun x y z => e2 (Lx x y z) i k) m X Y Z (S3 (fun j => eps3 i k j * kl A B l delta (e2 l) j m)).
Proof. unfold e2 at 1. apply (pd_S3 (fun j x y z => eps3 i k j * LF j x y z)). intros j. apply pd_scal, d_L. Qed.
Lemma e2_kl i k m : S3 (fun j => eps3 i k j * kl A B l delta (e2 l) j m) = A * (eps3 i k m - e2 l i k * l m) + B * (delta i m * l k - l i * delta k m).
Proof. unfold kl, e2, S3. destruct i, k, m; cbn [eps3 delta]; ring. Qed.
Lemma d_dl i k m : pd (lF' i k) m X Y Z (kll A B l p q delta (e2 l) eps3 i k m).
Proof.
  apply (pd_ext' (fun x y z => AF x y z * (delta i k - LF i x y z * LF k x y z) + BF x y z * e2 (Lx x y z) i k)); [reflexivity|].
  eapply pd_val; [|pdt ltac:(first [apply d_A | apply d_B | apply d_L | apply d_e2])]. cbv beta. rewrite e2_kl. unfold kll. fold (Lx X Y Z i) (Lx X Y Z k). fold l A B. ring.
Qed.
Lemma d_g i j k : pd (gF i j) k X Y Z (dgF k i j X Y Z).
Proof.
  unfold gF. eapply pd_val; [|pdt ltac:(first [apply d_A | apply d_L])]. cbv beta. unfold dgF, kdg, kh. fold (Lx X Y Z i) (Lx X Y Z j). fold l A B p q. ring.
Qed.
Lemma d_dg k i j m : pd (dgF k i j) m X Y Z (kddg M A B l p q delta (e2 l) eps3 k m i j).
Proof.
  apply (pd_ext' (fun x y z => 2 * (hF k x y z * LF i x y z * LF j x y z + M * AF x y z * (lF' i k x y z * LF j x y z + LF i x y z * lF' j k x y z)))); [reflexivity|].
  eapply pd_val; [|pdt ltac:(first [apply d_A | apply d_L | apply d_h | apply d_dl])]. cbv beta. unfold kddg, hF, lF', kh. fold (Lx X Y Z i) (Lx X Y Z j). fold l A B p q. ring.
Qed.
Lemma d_c i j m : pd (cF i j) m X Y Z (kdc M A B l p q delta (e2 l) m i j).
Proof.
  apply (pd_ext' (fun x y z => LF i x y z * hF j x y z + LF j x y z * hF i x y z + 2 * M * (AF x y z * AF x y z) * (delta i j - LF i x y z * LF j x y z) - 2 * (M * M) * (AF x y z * (AF x y z * AF x y z - BF x y z * BF x y z)) * (LF i x y z * LF j x y z))); [reflexivity|].
  eapply pd_val; [|pdt ltac:(first [apply d_A | apply d_B | apply d_L | apply d_h])]. cbv beta. unfold kdc, hF. fold (Lx X Y Z i) (Lx X Y Z j). fold l A B p q. ring.
Qed.
Lemma d_K i j m : pd (KF i j) m X Y Z (kdK M A B s l p q delta (e2 l) m i j).
Proof.
  apply (pd_ext' (fun x y z => sF x y z * cF i j x y z)); [reflexivity|]. eapply pd_val; [|apply pd_mult; [apply d_s|apply d_c]]. unfold kdK, kda, cF. fold l A B p q s. ring.
Qed.
Lemma d_da k m : pd (daF k) m X Y Z (kdda M A B s p q delta k m).
Proof.
  apply (pd_ext' (fun x y z => (0 - sF x y z * sF x y z * sF x y z) * hF k x y z)); [intros; unfold daF, kda, hF; ring|].
  eapply pd_val; [|pdt ltac:(first [apply d_s | apply d_h])]. cbv beta. unfold kdda, kda, hF. fold A B p q s. ring.
Qed.
Lemma d_b i k : pd (bF i) k X Y Z (2 * (s * s * (s * s)) * kh M A B p q k * l i + (1 - s * s) * kl A B l delta (e2 l) i k).
Proof. unfold bF. eapply pd_val; [|pdt ltac:(first [apply d_s | apply d_L])]. cbv beta. unfold kda. fold (Lx X Y Z i). fold l A B p q s. ring. Qed.
End PT.
End K.
