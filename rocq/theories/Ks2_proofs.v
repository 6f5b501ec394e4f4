(** Kerr-Schild data at one point solve the vacuum constraints: algebra.  l is a unit vector, q a vector orthogonal to it, p = l + q x l; A and B are two numbers, M the mass and s the lapse. *)
From Verif Require Import Rutil Coord_model Coord_spec Adm_model Adm_spec Adm_proofs Adm2_proofs Adm_props Frame_proofs Ks_proofs.
Local Open Scope R_scope.
Section T.
Variables (M A B s : R).
(** the tensors, from l, p, q, the Kronecker delta d, the tensor e2 i k = eps_ikj l_j and the tensor e3 = eps *)
Section DEF.
Variables (l p q : d3 -> R) (d e2 : d3 -> d3 -> R) (e3 : d3 -> d3 -> d3 -> R).
Definition kA (k : d3) : R := - (A * A - B * B) * p k - 2 * A * B * q k.
Definition kB (k : d3) : R := (A * A - B * B) * q k - 2 * A * B * p k.
Definition kh (k : d3) : R := M * kA k.
Definition kp (i k : d3) : R := A * (d i k - p i * p k + q i * q k) - B * (p i * q k + q i * p k).
Definition kq (i k : d3) : R := - A * (p i * q k + q i * p k) - B * (d i k - p i * p k + q i * q k).
Definition kl (i k : d3) : R := A * (d i k - l i * l k) + B * e2 i k.
Definition khh (k m : d3) : R := M * (- (2 * A * kA m - 2 * B * kB m) * p k - (A * A - B * B) * kp k m - 2 * (kA m * B + A * kB m) * q k - 2 * A * B * kq k m).
Definition kll (i k m : d3) : R := kA m * (d i k - l i * l k) - A * (kl i m * l k + l i * kl k m) + kB m * e2 i k + B * (A * (e3 i k m - e2 i k * l m) + B * (d i m * l k - l i * d k m)).
Definition kdg (k i j : d3) : R := 2 * (kh k * l i * l j + M * A * (kl i k * l j + l i * kl j k)).
Definition kddg (k m i j : d3) : R := 2 * (khh k m * l i * l j + kh k * (kl i m * l j + l i * kl j m) + kh m * (kl i k * l j + l i * kl j k) + M * A * (kll i k m * l j + kl i k * kl j m + kl i m * kl j k + l i * kll j k m)).
Definition kc (i j : d3) : R := l i * kh j + l j * kh i + 2 * M * (A * A) * (d i j - l i * l j) - 2 * (M * M) * (A * (A * A - B * B)) * (l i * l j).
Definition kdc (m i j : d3) : R := kl i m * kh j + l i * khh j m + (kl j m * kh i + l j * khh i m) + 2 * M * (2 * A * kA m * (d i j - l i * l j) - A * A * (kl i m * l j + l i * kl j m))
  - 2 * (M * M) * ((kA m * (A * A - B * B) + A * (2 * A * kA m - 2 * B * kB m)) * (l i * l j) + A * (A * A - B * B) * (kl i m * l j + l i * kl j m)).
Definition kK (i j : d3) : R := s * kc i j.
Definition kdK (m i j : d3) : R := s * kdc m i j - s * s * s * kh m * kc i j.
Definition kda (k : d3) : R := - (s * s * s) * kh k.
Definition kdda (k m : d3) : R := 3 * (s * s * s * s * s) * (kh k * kh m) - s * s * s * khh k m.
Definition kgi (i j : d3) : R := d i j - (1 - s * s) * (l i * l j).
End DEF.
(** changing the frame *)
Section CH.
Variables (Q : d3 -> d3 -> R) (l p q : d3 -> R) (d e2 : d3 -> d3 -> R) (e3 : d3 -> d3 -> d3 -> R).
Notation T1 := (t1 Q). Notation T2 := (t2 Q). Notation T3 := (t3 Q). Notation T4 := (t4 Q).
Let l' := T1 l. Let p' := T1 p. Let q' := T1 q. Let d' := T2 d. Let e2' := T2 e2. Let e3' := T3 e3.
Ltac un := unfold t4, t3, t2, t1, S3.
Lemma c_A a : T1 (kA p q) a = kA p' q' a. Proof. unfold kA, p', q'. un. ring. Qed.
Lemma c_B a : T1 (kB p q) a = kB p' q' a. Proof. unfold kB, p', q'. un. ring. Qed.
Lemma c_h a : T1 (kh p q) a = kh p' q' a. Proof. unfold kh. rewrite <- c_A. apply t1_scal. Qed.
Lemma c_p a b : T2 (kp p q d) a b = kp p' q' d' a b. Proof. unfold kp, p', q', d'. un. ring. Qed.
Lemma c_q a b : T2 (kq p q d) a b = kq p' q' d' a b. Proof. unfold kq, p', q', d'. un. ring. Qed.
Lemma c_l a b : T2 (kl l d e2) a b = kl l' d' e2' a b. Proof. unfold kl, l', d', e2'. un. ring. Qed.
Lemma c_hh a b : T2 (khh p q d) a b = khh p' q' d' a b.
Proof. unfold khh. rewrite <- c_A, <- c_B, <- c_p, <- c_q. generalize (kA p q) (kB p q) (kp p q d) (kq p q d). intros u v t w. unfold p', q'. un. ring. Qed.
Lemma c_ll a b c : T3 (kll l p q d e2 e3) a b c = kll l' p' q' d' e2' e3' a b c.
Proof. unfold kll. rewrite <- c_A, <- c_B, <- !c_l. generalize (kA p q) (kB p q) (kl l d e2). intros u v t. unfold l', d', e2', e3'. un. ring. Qed.
Lemma c_dg a b c : T3 (kdg l p q d e2) a b c = kdg l' p' q' d' e2' a b c.
Proof. unfold kdg. rewrite <- c_h, <- !c_l. generalize (kh p q) (kl l d e2). intros u v. unfold l'. un. ring. Qed.
Lemma c_ddg a b c e : T4 (kddg l p q d e2 e3) a b c e = kddg l' p' q' d' e2' e3' a b c e.
Proof. unfold kddg. rewrite <- !c_h, <- c_hh, <- !c_l, <- !c_ll. generalize (kh p q) (khh p q d) (kl l d e2) (kll l p q d e2 e3). intros u v t w. unfold l'. un. ring. Qed.
Lemma c_c a b : T2 (kc l p q d) a b = kc l' p' q' d' a b.
Proof. unfold kc. rewrite <- !c_h. generalize (kh p q). intros u. unfold l', d'. un. ring. Qed.
Lemma c_dc a b c : T3 (kdc l p q d e2) a b c = kdc l' p' q' d' e2' a b c.
Proof. unfold kdc. rewrite <- !c_h, <- !c_hh, <- !c_l, <- !c_A, <- !c_B. generalize (kh p q) (khh p q d) (kl l d e2) (kA p q) (kB p q). intros u v t w y. unfold l', d'. un. ring. Qed.
Lemma c_K a b : T2 (kK l p q d) a b = kK l' p' q' d' a b.
Proof. unfold kK. rewrite <- c_c. apply t2_scal. Qed.
Lemma c_dK a b c : T3 (kdK l p q d e2) a b c = kdK l' p' q' d' e2' a b c.
Proof. unfold kdK. rewrite <- c_dc, <- c_c, <- c_h. generalize (kdc l p q d e2) (kc l p q d) (kh p q). intros u v t. un. ring. Qed.
Lemma c_da a : T1 (kda p q) a = kda p' q' a.
Proof. unfold kda. rewrite <- c_h. apply t1_scal. Qed.
Lemma c_dda a b : T2 (kdda p q d) a b = kdda p' q' d' a b.
Proof. unfold kdda. rewrite <- !c_h, <- c_hh. generalize (kh p q) (khh p q d). intros u v. un. ring. Qed.
End CH.
(** the frame in which l is the third vector *)
Section FRAME.
Variables (u v : R).
Definition fl (i : d3) : R := match i with D3 => 1 | _ => 0 end.
Definition fq (i : d3) : R := match i with D1 => u | D2 => v | D3 => 0 end.
Definition fp (i : d3) : R := match i with D1 => v | D2 => - u | D3 => 1 end.
Definition fe (i k : d3) : R := match i, k with D1, D2 => 1 | D2, D1 => -1 | _, _ => 0 end.
Hypothesis (E : s * s * (1 + 2 * (M * A)) = 1) (A0 : A <> 0).
Lemma s0 : s <> 0. Proof. intros Z. rewrite Z in E. lra. Qed.
Lemma M_s : M = (1 - s * s) / (2 * (s * s) * A).
Proof. pose proof s0. rewrite <- E at 1. field. auto. Qed.
Definition wd (i : d3) : R := match i with D3 => s * s | _ => 1 end.
Lemma gi_f i j : kgi fl delta i j = match i, j with D1, D1 | D2, D2 => 1 | D3, D3 => s * s | _, _ => 0 end.
Proof. destruct i, j; cbn [kgi fl delta]; unfold kgi; cbn [fl delta]; ring. Qed.
Lemma tr_f T : trace (kgi fl delta) T = S3 (fun i => wd i * T i i).
Proof. unfold trace, SS, S3. rewrite !gi_f. unfold wd. ring. Qed.
Lemma chr_f dh e i c : christoffel (kgi fl delta) dh e i c = 1 / 2 * (wd e * (dh i e c + dh c e i - dh e i c)).
Proof. unfold christoffel, S3. rewrite !gi_f. destruct e; unfold wd; ring. Qed.
Lemma ric_f dh ddh i j : ric_form (kgi fl delta) dh ddh i j =
  S3 (fun c => wd c * (1 / 2 * (ddh i c j c + ddh j c i c - ddh c c i j - ddh i j c c) + S3 (fun e => wd e * (1 / 4 * ((dh i e c + dh c e i - dh e i c) * (dh j c e + dh c j e - dh e j c) - (dh i e j + dh j e i - dh e i j) * (dh c c e + dh c c e - dh e c c)))))).
Proof. unfold ric_form, SS, S3. rewrite !gi_f, !chr_f. unfold wd. field. Qed.
Ltac go := unfold S3, wd, kddg, kdg, kdK, kK, kdda, kda, kdc, kc, kll, khh, kh, kl, kp, kq, kA, kB; cbn [fl fq fp fe eps3 delta].
Lemma ham_f : trace (kgi fl delta) (ric_form (kgi fl delta) (kdg fl fp fq delta fe) (kddg fl fp fq delta fe eps3)) + trace (kgi fl delta) (kK fl fp fq delta) * trace (kgi fl delta) (kK fl fp fq delta) - square (kgi fl delta) (kK fl fp fq delta) = 0.
Proof.
  rewrite !tr_f. replace (square (kgi fl delta) (kK fl fp fq delta)) with (S3 (fun i => S3 (fun j => wd i * wd j * (kK fl fp fq delta i j * kK fl fp fq delta i j)))) by (unfold square, SS, S3; rewrite !gi_f; unfold wd; ring).
  unfold S3 at 1. rewrite !ric_f. pose proof s0 as S0. pose proof M_s as EM. clear E. go. rewrite EM. field. auto.
Qed.
Let Ga := christoffel (kgi fl delta) (kdg fl fp fq delta fe).
Let DK := cov Ga (kK fl fp fq delta) (kdK fl fp fq delta fe).
Lemma mom_f i : momentum (kgi fl delta) DK i = 0.
Proof.
  transitivity (S3 (fun j => wd j * (DK j i j - DK i j j))); [unfold momentum, SS, S3; rewrite !gi_f; unfold wd; ring|].
  unfold DK, cov, S3. unfold Ga. rewrite !chr_f. pose proof s0 as S0. pose proof M_s as EM. clear E DK Ga. destruct i; go; rewrite EM; field; auto.
Qed.
Lemma dtr_f : S3 (fun k => (1 - s * s) * fl k * trace (kgi fl delta) (fun i j => DK k i j)) - trace (kgi fl delta) (hessian Ga (kda fp fq) (kdda fp fq delta)) + s * (trace (kgi fl delta) (ric_form (kgi fl delta) (kdg fl fp fq delta fe) (kddg fl fp fq delta fe eps3)) + trace (kgi fl delta) (kK fl fp fq delta) * trace (kgi fl delta) (kK fl fp fq delta)) = 0.
Proof.
  replace (trace (kgi fl delta) (ric_form (kgi fl delta) (kdg fl fp fq delta fe) (kddg fl fp fq delta fe eps3))) with (square (kgi fl delta) (kK fl fp fq delta) - trace (kgi fl delta) (kK fl fp fq delta) * trace (kgi fl delta) (kK fl fp fq delta)) by (pose proof ham_f; lra).
  replace (square (kgi fl delta) (kK fl fp fq delta)) with (S3 (fun i => S3 (fun j => wd i * wd j * (kK fl fp fq delta i j * kK fl fp fq delta i j)))) by (unfold square, SS, S3; rewrite !gi_f; unfold wd; ring).
  unfold S3 at 1. rewrite !tr_f. unfold hessian, DK, cov, S3. unfold Ga. rewrite !chr_f. pose proof s0 as S0. pose proof M_s as EM. clear E DK Ga. go. rewrite EM. field. auto.
Qed.
End FRAME.
End T.
