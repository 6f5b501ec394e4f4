(** Kerr-Schild data at one point solve the vacuum constraints, in any orientation. *)
From Verif Require Import Rutil Coord_model Coord_spec Adm_model Adm_spec Adm_proofs Adm2_proofs Adm_props Frame_proofs Ks_proofs Ks2_proofs.
Local Open Scope R_scope.
(** a right-handed orthonormal frame with third vector l *)
Definition frame (Q : d3 -> d3 -> R) (l : d3 -> R) : Prop :=
  (forall i, Q i D3 = l i) /\ (forall a b, S3 (fun i => Q i a * Q i b) = delta a b) /\ (forall i j, S3 (fun a => Q i a * Q j a) = delta i j) /\ (forall a b c, t3 Q eps3 a b c = eps3 a b c).
Lemma frame_exists l : S3 (fun i => l i * l i) = 1 -> exists Q, frame Q l.
Proof.
  intros U. unfold S3 in U. set (a := l D1) in *. set (b := l D2) in *. set (c := l D3) in *. destruct (Req_dec (1 + c) 0) as [C|C].
  - assert (Ec : c = -1) by lra. assert (Ea : a = 0) by nra. assert (Eb : b = 0) by nra.
    exists (fun i j => match i, j with D1, D1 => 1 | D2, D2 => -1 | D3, D3 => -1 | _, _ => 0 end). repeat split.
    + intros i. destruct i; fold a b c; lra.
    + intros i j. destruct i, j; unfold S3; cbn [delta]; ring.
    + intros i j. destruct i, j; unfold S3; cbn [delta]; ring.
    + intros i j k. destruct i, j, k; unfold t3, t2, t1, S3; cbn [eps3]; ring.
  - assert (Ea : a ^ 2 = 1 - b * b - c * c) by (transitivity (a * a); [ring|lra]). set (k := / (1 + c)).
    exists (fun i j => match i, j with D1, D1 => 1 - k * (a * a) | D1, D2 | D2, D1 => - k * a * b | D2, D2 => 1 - k * (b * b) | D3, D1 => - a | D3, D2 => - b | D1, D3 => a | D2, D3 => b | D3, D3 => c end). repeat split.
    + intros i. destruct i; reflexivity.
    + intros i j. clear U. destruct i, j; unfold S3; cbn [delta]; unfold k; (field [Ea] || ring [Ea]); auto.
    + intros i j. clear U. destruct i, j; unfold S3; cbn [delta]; unfold k; (field [Ea] || ring [Ea]); auto.
    + intros i j m. clear U. destruct i, j, m; unfold t3, t2, t1, S3; cbn [eps3]; unfold k; (field [Ea] || ring [Ea]); auto.
Qed.
Section V.
Variables (M A B s : R) (l p q : d3 -> R).
Hypothesis (U : S3 (fun i => l i * l i) = 1) (QL : S3 (fun i => q i * l i) = 0) (P : forall i, p i = l i + S3 (fun j => S3 (fun k => eps3 i j k * q j * l k))) (E : s * s * (1 + 2 * (M * A)) = 1) (A0 : A <> 0).
Definition e2 (i k : d3) : R := S3 (fun j => eps3 i k j * l j).
Section WITH.
Variable Q : d3 -> d3 -> R.
Hypothesis FQ : frame Q l.
Let u := t1 Q q D1. Let v := t1 Q q D2.
Lemma f_l a : t1 Q l a = fl a.
Proof. destruct FQ as (F1 & F2 & _). pose proof (F2 a D3) as F. unfold t1. unfold S3 in *. rewrite !F1 in F. rewrite F. destruct a; reflexivity. Qed.
Lemma f_q a : t1 Q q a = fq u v a.
Proof. destruct FQ as (F1 & _). destruct a; try reflexivity. cbn [fq]. rewrite <- QL. unfold t1, S3. rewrite !F1. ring. Qed.
Lemma f_d a b : t2 Q delta a b = delta a b.
Proof. destruct FQ as (_ & F2 & _). rewrite <- F2. unfold t2, t1, S3. cbn [delta]. ring. Qed.
Lemma f_e3 a b c : t3 Q eps3 a b c = eps3 a b c. Proof. apply FQ. Qed.
Lemma f_e2 a b : t2 Q e2 a b = fe a b.
Proof.
  destruct FQ as (F1 & _ & _ & F4). transitivity (t3 Q eps3 a b D3); [|rewrite F4; destruct a, b; reflexivity]. unfold t3, t2, t1, e2, S3. rewrite !F1. ring.
Qed.
Lemma complete T i : T i = S3 (fun a => Q i a * t1 Q T a).
Proof.
  destruct FQ as (_ & _ & F3 & _). transitivity (S3 (fun j => delta i j * T j)); [destruct i; unfold S3; cbn [delta]; ring|].
  unfold t1. transitivity (S3 (fun j => S3 (fun a => Q i a * Q j a) * T j)); [apply S3_ext; intros j; now rewrite F3|]. unfold S3. ring.
Qed.
Lemma f_p a : t1 Q p a = fp u v a.
Proof.
  transitivity (t1 Q l a + S3 (fun b => t1 Q q b * t3 Q eps3 a b D3)).
  - transitivity (t1 Q l a + t1 Q (fun i => S3 (fun j => S3 (fun k => eps3 i j k * S3 (fun b => Q j b * t1 Q q b) * l k))) a).
    + rewrite <- t1_plus. apply t1_ext. intros i. rewrite P. f_equal. apply S3_ext. intros j. apply S3_ext. intros k. now rewrite <- complete.
    + f_equal. destruct FQ as (F1 & _). generalize (t1 Q q). intros q'. unfold t3, t2, t1, S3. rewrite !F1. ring.
  - rewrite f_l. unfold S3. rewrite !f_e3, !f_q. destruct a; cbn [fl fq fp eps3]; ring.
Qed.
Lemma f_gi i j : kgi s l delta i j = SS (fun a b => Q i a * Q j b * kgi s fl delta a b).
Proof.
  unfold kgi at 1. destruct FQ as (F1 & _ & F3 & _). rewrite <- F3, <- !F1. unfold SS, S3. rewrite !gi_f. ring.
Qed.
Ltac vals := rewrite ?f_l, ?f_p, ?f_q, ?f_d, ?f_e2, ?f_e3.
Notation FP := (fp u v). Notation FQ' := (fq u v).
Lemma f_dg a b c : t3 Q (kdg M A B l p q delta e2) a b c = kdg M A B fl FP FQ' delta fe a b c.
Proof. rewrite c_dg. unfold kdg, kh, kl, kA. now vals. Qed.
Lemma f_ddg a b c d : t4 Q (kddg M A B l p q delta e2 eps3) a b c d = kddg M A B fl FP FQ' delta fe eps3 a b c d.
Proof. rewrite c_ddg. unfold kddg, kll, khh, kh, kl, kp, kq, kA, kB. now vals. Qed.
Lemma f_K a b : t2 Q (kK M A B s l p q delta) a b = kK M A B s fl FP FQ' delta a b.
Proof. rewrite c_K. unfold kK, kc, kh, kA. now vals. Qed.
Lemma f_dK a b c : t3 Q (kdK M A B s l p q delta e2) a b c = kdK M A B s fl FP FQ' delta fe a b c.
Proof. rewrite c_dK. unfold kdK, kdc, kc, khh, kh, kl, kp, kq, kA, kB. now vals. Qed.
Lemma f_da a : t1 Q (kda M A B s p q) a = kda M A B s FP FQ' a.
Proof. rewrite c_da. unfold kda, kh, kA. now vals. Qed.
Lemma f_dda a b : t2 Q (kdda M A B s p q delta) a b = kdda M A B s FP FQ' delta a b.
Proof. rewrite c_dda. unfold kdda, khh, kh, kp, kq, kA, kB. now vals. Qed.
End WITH.
Lemma trace_ext h T T' : (forall i j, T i j = T' i j) -> trace h T = trace h T'.
Proof. intros EQ. unfold trace. apply SS_ext. intros. now rewrite EQ. Qed.
Lemma square_ext h T T' : (forall i j, T i j = T' i j) -> square h T = square h T'.
Proof. intros EQ. unfold square, SS, S3. now rewrite !EQ. Qed.
Lemma chr_ext h D D' e i c : (forall k i j, D k i j = D' k i j) -> christoffel h D e i c = christoffel h D' e i c.
Proof. intros EQ. unfold christoffel, S3. now rewrite !EQ. Qed.
Lemma ric_ext h D D' DD DD' i j : (forall k i j, D k i j = D' k i j) -> (forall k m i j, DD k m i j = DD' k m i j) -> ric_form h D DD i j = ric_form h D' DD' i j.
Proof. intros EQ EQ'. unfold ric_form. apply SS_ext. intros c d. rewrite !EQ'. f_equal. f_equal. apply S3_ext. intros e. rewrite !(chr_ext h D D') by auto. now rewrite !EQ. Qed.
Lemma cov_ext G G' K K' D D' k i j : (forall k i j, G k i j = G' k i j) -> (forall i j, K i j = K' i j) -> (forall k i j, D k i j = D' k i j) -> cov G K D k i j = cov G' K' D' k i j.
Proof. intros E1 E2 E3. unfold cov, S3. now rewrite !E1, !E2, E3. Qed.
Lemma hess_ext G G' D D' DD DD' i j : (forall k i j, G k i j = G' k i j) -> (forall i, D i = D' i) -> (forall i j, DD i j = DD' i j) -> hessian G D DD i j = hessian G' D' DD' i j.
Proof. intros E1 E2 E3. unfold hessian, S3. now rewrite !E1, !E2, E3. Qed.
Lemma mom_ext h D D' i : (forall k i j, D k i j = D' k i j) -> momentum h D i = momentum h D' i.
Proof. intros EQ. unfold momentum, SS, S3. now rewrite !EQ. Qed.
(** the tensors of the code at the point *)
Let hi := kgi s l delta. Let DG := kdg M A B l p q delta e2. Let DDG := kddg M A B l p q delta e2 eps3. Let K := kK M A B s l p q delta. Let dK := kdK M A B s l p q delta e2.
Let Ga := christoffel hi DG.
Theorem vac_ham : trace hi (ric_form hi DG DDG) + trace hi K * trace hi K - square hi K = 0.
Proof.
  destruct (frame_exists l U) as (Q & FQ). pose proof (f_gi Q FQ) as G. rewrite <- (ham_f M A B s (t1 Q q D1) (t1 Q q D2) E A0). unfold hi.
  rewrite !(trace_fr Q _ _ G), (square_fr Q _ _ G). f_equal; [f_equal|].
  - apply trace_ext. intros a b. rewrite (ric_fr Q _ _ G). apply ric_ext; intros; [now apply f_dg|now apply f_ddg].
  - f_equal; apply trace_ext; intros; now apply f_K.
  - apply square_ext. intros; now apply f_K.
Qed.
Lemma cov_f Q (FQ : frame Q l) a b c : t3 Q (cov Ga K dK) a b c = cov (christoffel (kgi s fl delta) (kdg M A B fl (fp (t1 Q q D1) (t1 Q q D2)) (fq (t1 Q q D1) (t1 Q q D2)) delta fe)) (kK M A B s fl (fp (t1 Q q D1) (t1 Q q D2)) (fq (t1 Q q D1) (t1 Q q D2)) delta) (kdK M A B s fl (fp (t1 Q q D1) (t1 Q q D2)) (fq (t1 Q q D1) (t1 Q q D2)) delta fe) a b c.
Proof. unfold Ga, hi. rewrite (cov_fr Q _ _ (f_gi Q FQ)). apply cov_ext; intros; [apply chr_ext; intros; now apply f_dg|now apply f_K|now apply f_dK]. Qed.
Theorem vac_mom i : momentum hi (cov Ga K dK) i = 0.
Proof.
  destruct (frame_exists l U) as (Q & FQ). pose proof (f_gi Q FQ) as G. rewrite (complete Q FQ).
  assert (Z : forall a, t1 Q (momentum hi (cov Ga K dK)) a = 0). { intros a. unfold hi at 1. rewrite (mom_fr Q _ _ G). rewrite <- (mom_f M A B s (t1 Q q D1) (t1 Q q D2) E A0 a). apply mom_ext. intros. now apply cov_f. }
  unfold S3. rewrite !Z. ring.
Qed.
Theorem vac_dtr : S3 (fun k => (1 - s * s) * l k * trace hi (fun i j => cov Ga K dK k i j)) - trace hi (hessian Ga (kda M A B s p q) (kdda M A B s p q delta)) + s * (trace hi (ric_form hi DG DDG) + trace hi K * trace hi K) = 0.
Proof.
  destruct (frame_exists l U) as (Q & FQ). pose proof (f_gi Q FQ) as G. rewrite <- (dtr_f M A B s (t1 Q q D1) (t1 Q q D2) E A0). f_equal; [f_equal|f_equal; f_equal].
  - transitivity ((1 - s * s) * S3 (fun k => l k * trace hi (fun i j => cov Ga K dK k i j))); [unfold S3; ring|]. transitivity ((1 - s * s) * S3 (fun a => fl a * t1 Q (fun k => trace hi (fun i j => cov Ga K dK k i j)) a)).
    + f_equal. set (T := fun k => trace hi (fun i j => cov Ga K dK k i j)). change (S3 (fun k => l k * T k) = S3 (fun a => fl a * t1 Q T a)). clearbody T. destruct FQ as (F1 & _). unfold t1, S3, fl. rewrite <- !F1. ring.
    + unfold hi at 1. assert (TD : forall a, t1 Q (fun k => trace (kgi s l delta) (fun i j => cov Ga K dK k i j)) a = trace (kgi s fl delta) (fun i j => t3 Q (cov Ga K dK) a i j)) by (intros a; apply (trd_fr Q _ _ G (cov Ga K dK))).
      unfold S3. rewrite !TD. rewrite !(trace_ext _ (fun i j => t3 Q (cov Ga K dK) _ i j) _ (fun i j => cov_f Q FQ _ i j)). ring.
  - unfold hi at 1. rewrite (trace_fr Q _ _ G). apply trace_ext. intros a b. unfold Ga, hi. rewrite (hess_fr Q _ _ G). apply hess_ext; intros; [apply chr_ext; intros; now apply f_dg|now apply f_da|now apply f_dda].
  - unfold hi at 1. rewrite (trace_fr Q _ _ G). apply trace_ext. intros a b. unfold hi. rewrite (ric_fr Q _ _ G). apply ric_ext; intros; [now apply f_dg|now apply f_ddg].
  - unfold hi. rewrite !(trace_fr Q _ _ G). f_equal; apply trace_ext; intros; now apply f_K.
Qed.
End V.
