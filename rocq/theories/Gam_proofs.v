(** Geometry of a metric at a point: derivatives of tensors with raised indices, conformal change of the momentum constraint, divergence of the change of the inverse metric. *)
From Verif Require Import Rutil Coord_model Coord_spec Adm_model Adm_spec Adm_proofs Adm2_proofs Conf_proofs.
Local Open Scope R_scope.
Lemma SSe F G : (forall i j, F i j = G i j) -> SS F = SS G. Proof. intros H. unfold SS, S3. now rewrite !H. Qed.
Lemma S3e F G : (forall i, F i = G i) -> S3 F = S3 G. Proof. intros H. unfold S3. now rewrite !H. Qed.
Section C.
Variables (g gi : d3 -> d3 -> R) (dg : d3 -> d3 -> d3 -> R).
Hypothesis gs : forall i j, g i j = g j i.
Hypothesis is : forall i j, gi i j = gi j i.
Hypothesis I : inverse g gi.
Hypothesis ds : forall k i j, dg k i j = dg k j i.
Let Gm := christoffel gi dg.
Let dgi := idg gi dg.
Ltac isy := rewrite ?(is D2 D1), ?(is D3 D1), ?(is D3 D2).
Ltac dsy := rewrite ?(ds D1 D2 D1), ?(ds D1 D3 D1), ?(ds D1 D3 D2), ?(ds D2 D2 D1), ?(ds D2 D3 D1), ?(ds D2 D3 D2), ?(ds D3 D2 D1), ?(ds D3 D3 D1), ?(ds D3 D3 D2).
Lemma Gm_sym c i j : Gm c i j = Gm c j i.
Proof. unfold Gm. rewrite !(ga_low gi dg ds). apply S3e. intros d. now rewrite (low_sym dg ds). Qed.
(** d_k g^ij = - Gamma^i_kl g^lj - Gamma^j_kl g^il *)
Lemma dgi_Gm k i j : dgi k i j = - S3 (fun l => Gm i k l * gi l j + Gm j k l * gi l i).
Proof.
  unfold dgi, idg, Gm. rewrite (S3e _ (fun l => S3 (fun d => gi i d * low dg d k l) * gi l j + S3 (fun d => gi j d * low dg d k l) * gi l i)) by (intros; now rewrite !(ga_low gi dg ds)).
  rewrite (SSe _ (fun c d => gi i c * gi j d * (low dg c k d + low dg d k c))) by (intros c d; now rewrite (dg_low dg ds k c d)). rewrite (S3e _ (fun l => S3 (fun d => gi i d * low dg d k l) * gi j l + S3 (fun d => gi j d * low dg d k l) * gi i l)) by (intros; now rewrite (is _ j), (is _ i)). unfold SS, S3. ring.
Qed.
(** Gamma^j_jl is half the trace of dg *)
Lemma Gm_tr l : S3 (fun j => Gm j j l) = 1 / 2 * SS (fun c d => gi c d * dg l c d).
Proof. unfold Gm, christoffel, SS, S3. isy. destruct l; dsy; field. Qed.
(** if the determinant does not change, the contracted Christoffel symbol is - d_j g^ij *)
Lemma con_div i : (forall l, SS (fun c d => gi c d * dg l c d) = 0) -> contracted gi dg i = - S3 (fun j => dgi j i j).
Proof.
  intros T. assert (T' : forall l, S3 (fun j => Gm j j l) = 0) by (intros; rewrite Gm_tr, T; ring).
  rewrite (S3e _ (fun j => - S3 (fun l => Gm i j l * gi l j + Gm j j l * gi l i))) by (intros; apply dgi_Gm).
  transitivity (contracted gi dg i + S3 (fun l => S3 (fun j => Gm j j l) * gi l i)); [unfold S3 at 1; rewrite !T'; ring|]. unfold contracted. change (christoffel gi dg) with Gm. unfold SS, S3. isy. ring.
Qed.
(** ** second derivatives of the inverse *)
Variable ddg : d3 -> d3 -> d3 -> d3 -> R.
Hypothesis dds2 : forall k l i j, ddg k l i j = ddg l k i j.
Definition ddgi (l k i j : d3) : R := - SS (fun c d => (dgi l i c * gi j d + gi i c * dgi l j d) * dg k c d + gi i c * gi j d * ddg k l c d).
Lemma ddgi_sym l k i j : ddgi l k i j = ddgi k l i j.
Proof.
  unfold ddgi. f_equal. 
  transitivity (SS (fun c d => SS (fun u v => - (gi i u * gi c v * dg l u v * gi j d + gi i c * gi j u * gi d v * dg l u v) * dg k c d)) + SS (fun c d => gi i c * gi j d * ddg k l c d)); [unfold dgi, idg; unfold SS, S3; ring|].
  transitivity (SS (fun c d => SS (fun u v => - (gi i u * gi c v * dg k u v * gi j d + gi i c * gi j u * gi d v * dg k u v) * dg l c d)) + SS (fun c d => gi i c * gi j d * ddg l k c d)); [|unfold dgi, idg; unfold SS, S3; ring].
  f_equal; [|apply SSe; intros; now rewrite dds2].
  transitivity (SS (fun c d => SS (fun u v => - (gi i u * gi j d) * (gi c v * (dg l u v * dg k c d)))) + SS (fun c d => SS (fun u v => - (gi i c * gi j u) * (gi d v * (dg l u v * dg k c d))))); [unfold SS, S3; ring|].
  transitivity (SS (fun c d => SS (fun u v => - (gi i u * gi j d) * (gi c v * (dg k u v * dg l c d)))) + SS (fun c d => SS (fun u v => - (gi i c * gi j u) * (gi d v * (dg k u v * dg l c d))))); [|unfold SS, S3; ring].
  rewrite Rplus_comm. f_equal; unfold SS, S3; isy; rewrite ?(ds k D2 D1), ?(ds k D3 D1), ?(ds k D3 D2), ?(ds l D2 D1), ?(ds l D3 D1), ?(ds l D3 D2); ring.
Qed.
(** ** a symmetric tensor with raised indices *)
Variables (A : d3 -> d3 -> R) (dA : d3 -> d3 -> d3 -> R).
Hypothesis As : forall i j, A i j = A j i.
Hypothesis dAs : forall k i j, dA k i j = dA k j i.
Definition upp (i j : d3) : R := SS (fun c d => gi i c * gi j d * A c d).
Definition dupp (k i j : d3) : R := SS (fun c d => (dgi k i c * gi j d + gi i c * dgi k j d) * A c d + gi i c * gi j d * dA k c d).
Lemma upp_s i j : upp i j = upp j i.
Proof. unfold upp, SS, S3. rewrite (As D2 D1), (As D3 D1), (As D3 D2). ring. Qed.
(** d_k A^ij = g^ic g^jd D_k A_cd - Gamma^i_kl A^lj - Gamma^j_kl A^il *)
Lemma dupp_cov k i j : dupp k i j = SS (fun c d => gi i c * gi j d * cov Gm A dA k c d) - S3 (fun l => Gm i k l * upp l j + Gm j k l * upp i l).
Proof.
  unfold dupp. rewrite (SSe _ (fun c d => (- S3 (fun l => Gm i k l * gi l c + Gm c k l * gi l i) * gi j d + gi i c * - S3 (fun l => Gm j k l * gi l d + Gm d k l * gi l j)) * A c d + gi i c * gi j d * dA k c d)) by (intros; now rewrite !dgi_Gm).
  unfold cov, upp. rewrite (SSe (fun c d => _ + _) (fun c d => (- S3 (fun l => Gm i k l * gi l c + Gm c k l * gi i l) * gi j d + gi i c * - S3 (fun l => Gm j k l * gi l d + Gm d k l * gi j l)) * A c d + gi i c * gi j d * dA k c d)) by (intros; unfold S3; rewrite ?(is _ i), ?(is _ j); ring).
  unfold SS, S3. ring.
Qed.
Lemma div_upp i : (forall l, SS (fun c d => gi c d * dg l c d) = 0) ->
  S3 (fun j => dupp j i j) = S3 (fun c => gi i c * SS (fun j d => gi j d * cov Gm A dA j c d)) - SS (fun j l => Gm i j l * upp l j).
Proof.
  intros T. assert (T' : forall l, S3 (fun j => Gm j j l) = 0) by (intros; rewrite Gm_tr, T; ring).
  rewrite (S3e _ (fun j => SS (fun c d => gi i c * gi j d * cov Gm A dA j c d) - S3 (fun l => Gm i j l * upp l j + Gm j j l * upp i l))) by (intros; apply dupp_cov).
  transitivity (S3 (fun c => gi i c * SS (fun j d => gi j d * cov Gm A dA j c d)) - SS (fun j l => Gm i j l * upp l j) - S3 (fun l => S3 (fun j => Gm j j l) * upp i l)); [unfold SS, S3; ring|]. rewrite (S3e (fun l => S3 (fun j => Gm j j l) * upp i l) (fun _ => 0)) by (intros; rewrite T'; ring). set (u := S3 (fun c => _)). set (v := SS _). unfold S3. ring.
Qed.
(** the derivative of the trace *)
Lemma dtrace k : trace gi (fun i j => cov Gm A dA k i j) = SS (fun i j => dgi k i j * A i j + gi i j * dA k i j).
Proof.
  rewrite (SSe _ (fun i j => - S3 (fun l => Gm i k l * gi l j + Gm j k l * gi l i) * A i j + gi i j * dA k i j)) by (intros; now rewrite dgi_Gm). unfold trace, cov, SS, S3. isy. rewrite (As D2 D1), (As D3 D1), (As D3 D2). ring.
Qed.
Lemma cov_sym k i j : cov Gm A dA k i j = cov Gm A dA k j i.
Proof. unfold cov. rewrite dAs. f_equal. apply S3e. intros l. rewrite (As l j), (As i l). ring. Qed.
Lemma cov_g k i j : cov Gm g dg k i j = 0.
Proof.
  unfold cov. rewrite (dg_low dg ds k i j). assert (L : forall d i j, S3 (fun e => Gm e i j * g e d) = low dg d i j).
  { intros d i0 j0. rewrite <- (lowering g gi dg gs is I ds d i0 j0). apply S3e. intros e. now rewrite (gs e d). }
  rewrite <- (L i k j), <- (L j k i). unfold S3. rewrite ?(gs i D1), ?(gs i D2), ?(gs i D3). ring.
Qed.
(** ** conformal change of the momentum constraint *)
Variables (E K : R) (f dK : d3 -> R).
Hypothesis NE : E <> 0.
Let B i j := A i j + K / 3 * g i j.
Let h' := chi gi E.
Let G' := christoffel h' (cdh g dg E f).
Let Kij i j := E * B i j.
Let dKij k i j := E * (dA k i j + dK k / 3 * g i j + K / 3 * dg k i j + 4 * f k * B i j).
Let fB i := S3 (fun l => cu gi f l * B l i).
Lemma B_s i j : B i j = B j i. Proof. unfold B. now rewrite As, gs. Qed.
Lemma cov_conf k i j : cov G' Kij dKij k i j = E * (cov Gm A dA k i j + dK k / 3 * g i j - 2 * f i * B k j - 2 * f j * B i k + 2 * g k i * fB j + 2 * g k j * fB i).
Proof.
  assert (Q : cov Gm A dA k i j + dK k / 3 * g i j = cov Gm A dA k i j + dK k / 3 * g i j + K / 3 * cov Gm g dg k i j) by (rewrite cov_g; ring). rewrite Q. clear Q.
  unfold cov, G', h'. rewrite (S3e _ (fun l => (Gm l k i + 2 * (delta l k * f i + delta l i * f k - g k i * cu gi f l)) * Kij l j + (Gm l k j + 2 * (delta l k * f j + delta l j * f k - g k j * cu gi f l)) * Kij i l)) by (intros l; now rewrite !(conf_gamma g gi dg gs I E f NE)).
  unfold dKij, Kij, fB. rewrite (S3e _ (fun l => (Gm l k i + 2 * (delta l k * f i + delta l i * f k - g k i * cu gi f l)) * (E * B l j) + (Gm l k j + 2 * (delta l k * f j + delta l j * f k - g k j * cu gi f l)) * (E * B l i))) by (intros l; now rewrite (B_s i l)).
  transitivity (E * (dA k i j + dK k / 3 * g i j + K / 3 * dg k i j + 4 * f k * B i j - S3 (fun l => Gm l k i * B l j + Gm l k j * B l i) - 2 * (S3 (fun l => delta l k * B l j) * f i + S3 (fun l => delta l i * B l j) * f k - g k i * S3 (fun l => cu gi f l * B l j) + S3 (fun l => delta l k * B l i) * f j + S3 (fun l => delta l j * B l i) * f k - g k j * S3 (fun l => cu gi f l * B l i)))); [unfold S3; ring|].
  assert (DL : forall m (Q : d3 -> R), S3 (fun l => delta l m * Q l) = Q m) by (intros [] Q; unfold S3, delta; ring). rewrite !DL. rewrite (B_s j i), (B_s k i).
  assert (Q : S3 (fun l => Gm l k i * B l j + Gm l k j * B l i) = S3 (fun l => Gm l k i * A l j + Gm l k j * A i l) + K / 3 * S3 (fun l => Gm l k i * g l j + Gm l k j * g i l)) by (unfold S3, B; rewrite ?(gs i D1), ?(gs i D2), ?(gs i D3), ?(As i D1), ?(As i D2), ?(As i D3); ring). rewrite Q. ring.
Qed.
Hypothesis TF : trace gi A = 0.
Hypothesis DTF : forall k, SS (fun i j => dgi k i j * A i j + gi i j * dA k i j) = 0.
Lemma trB : SS (fun i j => gi i j * B i j) = K.
Proof. transitivity (trace gi A + K / 3 * SS (fun i j => gi i j * g i j)); [unfold trace, B, SS, S3; ring|]. rewrite TF, (con3 g gi gs I). field. Qed.
Lemma fB_1 i : SS (fun j k => gi j k * (f j * B k i)) = fB i. Proof. unfold fB, cu, SS, S3. isy. ring. Qed.
Lemma momentum_conf i : momentum h' (cov G' Kij dKij) i = SS (fun j k => gi j k * cov Gm A dA j i k) + 6 * S3 (fun l => cu gi f l * A l i) - 2 / 3 * dK i.
Proof.
  unfold momentum.
  rewrite (SSe _ (fun j k => gi j k * cov Gm A dA j i k + 1 / 3 * (gi j k * (g k i * dK j)) - 2 * f i * (gi j k * B j k) - 2 * (gi j k * (f k * B j i)) + 2 * (gi j k * (g j i * fB k)) + 2 * fB i * (gi j k * g j k))) by (intros j k; rewrite cov_conf; unfold h', chi; rewrite (gs i k), (B_s i j); field; auto).
  rewrite (SSe (fun j k => h' j k * cov G' Kij dKij i j k) (fun j k => gi j k * cov Gm A dA i j k + dK i / 3 * (gi j k * g j k) - 2 * (gi j k * (f j * B k i)) - 2 * (gi j k * (f k * B j i)) + 2 * (gi j k * (g j i * fB k)) + 2 * (gi j k * (g k i * fB j)))) by (intros j k; rewrite cov_conf; unfold h', chi; rewrite (gs i k), (gs i j), (B_s i k); field; auto).
  assert (T1 : SS (fun j k => gi j k * cov Gm A dA i j k) = 0) by (rewrite <- (DTF i); apply dtrace).
  assert (F2 : SS (fun j k => gi j k * (f k * B j i)) = fB i) by (rewrite <- fB_1; unfold SS, S3; isy; ring).
  transitivity (SS (fun j k => gi j k * cov Gm A dA j i k) + 1 / 3 * SS (fun j k => gi j k * (g k i * dK j)) - 2 * f i * SS (fun j k => gi j k * B j k) - 2 * SS (fun j k => gi j k * (f k * B j i)) + 2 * SS (fun j k => gi j k * (g j i * fB k)) + 2 * fB i * SS (fun j k => gi j k * g j k)
    - (SS (fun j k => gi j k * cov Gm A dA i j k) + dK i / 3 * SS (fun j k => gi j k * g j k) - 2 * SS (fun j k => gi j k * (f j * B k i)) - 2 * SS (fun j k => gi j k * (f k * B j i)) + 2 * SS (fun j k => gi j k * (g j i * fB k)) + 2 * SS (fun j k => gi j k * (g k i * fB j)))); [unfold SS, S3; ring|].
  rewrite T1, F2, fB_1, trB, (con3 g gi gs I), (con g gi I dK i), (con g gi I fB i), (con2 g gi is I fB i).
  assert (FB : fB i = S3 (fun l => cu gi f l * A l i) + K / 3 * f i). { unfold fB, B. rewrite <- (cug g gi gs is I f i). unfold S3. rewrite ?(gs i D1), ?(gs i D2), ?(gs i D3). ring. }
  rewrite FB. field.
Qed.
(** ** the divergence of the change of the inverse metric *)
Variables (al : R) (da be : d3 -> R) (db : d3 -> d3 -> R) (ddb : d3 -> d3 -> d3 -> R).
Hypothesis ddbs : forall k l i, ddb k l i = ddb l k i.
Let div := S3 (fun k => db k k).
Definition rate (i j : d3) : R := - 2 * al * A i j + S3 (fun k => be k * dg k i j + g k j * db i k + g i k * db j k) - 2 / 3 * div * g i j.
(** the change of the metric with raised indices *)
Definition urate (i j : d3) : R := - 2 * al * upp i j - S3 (fun k => be k * dgi k i j) + S3 (fun k => gi i k * db k j + gi j k * db k i) - 2 / 3 * div * gi i j.
Lemma rate_up i j : SS (fun c d => gi i c * gi j d * rate c d) = urate i j.
Proof.
  assert (U : forall c e, S3 (fun d => gi c d * g d e) = delta c e) by exact I.
  transitivity (- 2 * al * upp i j - S3 (fun k => be k * dgi k i j) + SS (fun c k => gi i c * db c k * S3 (fun d => gi j d * g d k)) + SS (fun d k => gi j d * db d k * S3 (fun c => gi i c * g c k)) - 2 / 3 * div * S3 (fun d => gi j d * S3 (fun c => gi i c * g c d))).
  - unfold rate, upp, dgi, idg. set (t := 2 / 3 * div). unfold SS, S3. rewrite ?(gs D2 D1), ?(gs D3 D1), ?(gs D3 D2). ring.
  - rewrite (SSe (fun c k => gi i c * db c k * S3 (fun d => gi j d * g d k)) (fun c k => gi i c * db c k * delta j k)) by (intros; now rewrite U). rewrite (SSe (fun d k => gi j d * db d k * S3 (fun c => gi i c * g c k)) (fun d k => gi j d * db d k * delta i k)) by (intros; now rewrite U).
    rewrite (S3e (fun d => gi j d * S3 (fun c => gi i c * g c d)) (fun d => gi j d * delta i d)) by (intros; now rewrite U). unfold urate. set (t := 2 / 3 * div). rewrite (is i j). unfold SS, S3. destruct i, j; unfold delta; ring.
Qed.
Definition durate (l i j : d3) : R := - 2 * (da l * upp i j + al * dupp l i j) - S3 (fun k => db l k * dgi k i j + be k * ddgi l k i j) + S3 (fun k => dgi l i k * db k j + gi i k * ddb l k j + (dgi l j k * db k i + gi j k * ddb l k i)) - 2 / 3 * (S3 (fun k => ddb l k k) * gi i j + div * dgi l i j).
Lemma dgi_s k i j : dgi k i j = dgi k j i.
Proof. rewrite !dgi_Gm. unfold S3. ring. Qed.
Lemma div_urate i (G : d3 -> R) (dG : d3 -> d3 -> R) : (forall i, G i = - S3 (fun j => dgi j i j)) -> (forall k i, dG k i = - S3 (fun j => ddgi k j i j)) ->
  S3 (fun j => durate j i j) = S3 (fun k => be k * dG k i - G k * db k i) + 2 / 3 * G i * div + SS (fun j k => gi j k * ddb j k i) + 1 / 3 * S3 (fun j => gi i j * S3 (fun k => ddb j k k)) - 2 * (S3 (fun j => upp i j * da j) + al * S3 (fun j => dupp j i j)).
Proof.
  intros HG HdG. rewrite (S3e (fun k => be k * dG k i - G k * db k i) (fun k => be k * - S3 (fun j => ddgi j k i j) + S3 (fun j => dgi j j k) * db k i)).
  2:{ intros k. rewrite HG, HdG. rewrite (S3e (fun j => ddgi k j i j) (fun j => ddgi j k i j)) by (intros; apply ddgi_sym). rewrite (S3e (fun j => dgi j k j) (fun j => dgi j j k)) by (intros; apply dgi_s). ring. }
  rewrite HG. unfold durate, div. rewrite (S3e (fun j => gi i j * S3 (fun k => ddb j k k)) (fun j => gi i j * S3 (fun k => ddb k j k))) by (intros; f_equal; apply S3e; intros; apply ddbs).
  transitivity (SS (fun j k => - be k * ddgi j k i j + dgi j j k * db k i) + SS (fun j k => (dgi j i k * db k j - db j k * dgi k i j) + gi i k * ddb j k j + gi j k * ddb j k i) - 2 / 3 * S3 (fun j => gi i j * S3 (fun k => ddb j k k)) - 2 / 3 * S3 (fun k => db k k) * S3 (fun j => dgi j i j) - 2 * (S3 (fun j => upp i j * da j) + al * S3 (fun j => dupp j i j))); [unfold SS; unfold S3; ring|].
  rewrite (S3e (fun j => gi i j * S3 (fun k => ddb j k k)) (fun j => gi i j * S3 (fun k => ddb k j k))) by (intros; f_equal; apply S3e; intros; apply ddbs). unfold SS; unfold S3. field.
Qed.
End C.
