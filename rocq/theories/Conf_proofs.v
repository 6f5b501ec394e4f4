(** Geometry of a metric at a point: conformal change of the Christoffel symbols and of the Ricci tensor; the Ricci tensor from the contracted Christoffel symbols. *)
From Verif Require Import Rutil Coord_model Coord_spec Adm_model Adm_spec Adm_proofs.
Local Open Scope R_scope.
Section C.
Variables (g gi : d3 -> d3 -> R) (dg : d3 -> d3 -> d3 -> R) (ddg : d3 -> d3 -> d3 -> d3 -> R).
Hypothesis gs : forall i j, g i j = g j i.
Hypothesis is : forall i j, gi i j = gi j i.
Hypothesis I : inverse g gi.
Hypothesis ds : forall k i j, dg k i j = dg k j i.
Hypothesis dds : forall k l i j, ddg k l i j = ddg k l j i.
Hypothesis dds2 : forall k l i j, ddg k l i j = ddg l k i j.
(** lower Christoffel symbols *)
Definition low (c i j : d3) : R := 1 / 2 * (dg i j c + dg j i c - dg c i j).
Lemma low_sym c i j : low c i j = low c j i.
Proof. unfold low. rewrite (ds c i j). ring. Qed.
Lemma dg_low k i j : dg k i j = low i k j + low j k i.
Proof. unfold low. rewrite (ds i k j), (ds j k i), (ds k j i), (ds i j k), (ds j i k). field. Qed.
Lemma ga_low c i j : christoffel gi dg c i j = S3 (fun d => gi c d * low d i j).
Proof. unfold christoffel, low, S3. rewrite ?(ds i D1 j), ?(ds i D2 j), ?(ds i D3 j), ?(ds j D1 i), ?(ds j D2 i), ?(ds j D3 i). field. Qed.
Let SSe F G : (forall i j, F i j = G i j) -> SS F = SS G.
Proof. intros H. unfold SS, S3. now rewrite !H. Qed.
Let S3e F G : (forall i, F i = G i) -> S3 F = S3 G.
Proof. intros H. unfold S3. now rewrite !H. Qed.
(** contractions *)
Lemma con (Q : d3 -> R) e : SS (fun c d => gi c d * (g d e * Q c)) = Q e.
Proof.
  transitivity (S3 (fun c => S3 (fun d => gi c d * g d e) * Q c)); [unfold SS, S3; ring|]. unfold S3 at 1. rewrite !I. destruct e; cbn [delta]; ring.
Qed.
Lemma con2 (Q : d3 -> R) e : SS (fun c d => gi c d * (g c e * Q d)) = Q e.
Proof. rewrite <- (con Q e). unfold SS, S3. rewrite (is D2 D1), (is D3 D1), (is D3 D2). ring. Qed.
Lemma con3 : SS (fun c d => gi c d * g c d) = 3.
Proof.
  transitivity (S3 (fun c => S3 (fun d => gi c d * g d c))); [unfold SS, S3; rewrite (gs D2 D1), (gs D3 D1), (gs D3 D2); ring|]. unfold S3 at 1. rewrite !I. cbn [delta]. ring.
Qed.
Lemma up (c e : d3) : S3 (fun d => gi c d * g d e) = delta c e. Proof. apply I. Qed.
(** ** conformal change h = E g with E = exp (4 f) *)
Variables (E : R) (f : d3 -> R) (ff : d3 -> d3 -> R).
Hypothesis NE : E <> 0.
Hypothesis fs : forall i j, ff i j = ff j i.
Definition chi (i j : d3) : R := gi i j / E.
Definition cdh (k i j : d3) : R := E * (dg k i j + 4 * f k * g i j).
Definition cddh (k l i j : d3) : R := E * (ddg k l i j + 4 * f k * dg l i j + 4 * f l * dg k i j + (4 * ff k l + 16 * (f k * f l)) * g i j).
Definition cu (i : d3) : R := S3 (fun l => gi i l * f l).
Lemma conf_gamma c i j : christoffel chi cdh c i j = christoffel gi dg c i j + 2 * (delta c i * f j + delta c j * f i - g i j * cu c).
Proof.
  rewrite <- !up. unfold christoffel, chi, cdh, cu, S3. rewrite ?(gs j D1), ?(gs j D2), ?(gs j D3), ?(gs i D1), ?(gs i D2), ?(gs i D3). destruct i, j; rewrite ?(gs D2 D1), ?(gs D3 D1), ?(gs D3 D2); field; auto.
Qed.
(** covariant second derivatives of f, their trace, the square of the gradient *)
Definition cdd (i j : d3) : R := hessian (christoffel gi dg) f ff i j.
Definition rphi (i j : d3) : R := -2 * cdd i j - 2 * g i j * trace gi cdd + 4 * (f i * f j) - 4 * g i j * S3 (fun k => cu k * f k).
(** ** the Ricci tensor from the contracted Christoffel symbols G^k and their derivatives *)
Definition bric (G : d3 -> R) (dG : d3 -> d3 -> R) (i j : d3) : R :=
  - (1 / 2) * SS (fun l m => gi l m * ddg l m i j) + 1 / 2 * S3 (fun k => g k i * dG j k + g k j * dG i k) + 1 / 2 * S3 (fun k => G k * (low i j k + low j i k))
  + SS (fun l m => gi l m * S3 (fun k => christoffel gi dg k l i * low j k m + christoffel gi dg k l j * low i k m + christoffel gi dg k i m * low k l j)).
Definition idg (k i j : d3) : R := - SS (fun c d => gi i c * gi j d * dg k c d).
Definition dgam := dgamma gi dg ddg idg.
Definition contracted (k : d3) : R := SS (fun a b => gi a b * christoffel gi dg k a b).
Definition dcontracted (j k : d3) : R := SS (fun a b => idg j a b * christoffel gi dg k a b + gi a b * dgam j k a b).
Let Gmm := christoffel gi dg.
Lemma idg_low j i m : S3 (fun k => g k i * idg j k m) = - S3 (fun d => gi m d * dg j i d).
Proof.
  transitivity (- SS (fun c d => S3 (fun k => gi c k * g k i) * (gi m d * dg j c d))).
  - unfold idg, SS, S3. rewrite (is D2 D1), (is D3 D1), (is D3 D2). ring.
  - rewrite (SSe _ (fun c d => delta c i * (gi m d * dg j c d))) by (intros; now rewrite I). destruct i; unfold SS, S3; cbn [delta]; ring.
Qed.
Lemma dgam_low j i a b : S3 (fun k => g k i * dgam j k a b) = - S3 (fun d => Gmm d a b * dg j i d) + 1 / 2 * (ddg j a i b + ddg j b i a - ddg j i a b).
Proof.
  transitivity (S3 (fun m => S3 (fun k => g k i * idg j k m) * low m a b) + 1 / 2 * S3 (fun m => S3 (fun k => gi m k * g k i) * (ddg j a m b + ddg j b m a - ddg j m a b))).
  - unfold dgam, dgamma, low, S3. rewrite (is D2 D1), (is D3 D1), (is D3 D2). rewrite ?(ds a D1 b), ?(ds a D2 b), ?(ds a D3 b), ?(ds b D1 a), ?(ds b D2 a), ?(ds b D3 a). field.
  - f_equal; [|f_equal; unfold S3 at 1; rewrite !I; destruct i; cbn [delta]; ring].
    unfold S3 at 1. rewrite !idg_low. unfold Gmm, S3. rewrite !ga_low. unfold S3. rewrite (is D2 D1), (is D3 D1), (is D3 D2). ring.
Qed.
Lemma gam_low i a b : S3 (fun k => g k i * Gmm k a b) = low i a b.
Proof.
  transitivity (S3 (fun m => S3 (fun k => gi m k * g k i) * low m a b)).
  - unfold Gmm, S3. rewrite !ga_low. unfold S3. rewrite (is D2 D1), (is D3 D1), (is D3 D2). ring.
  - unfold S3 at 1. rewrite !I. destruct i; cbn [delta]; ring.
Qed.
Lemma dcon_low i j : S3 (fun k => g k i * dcontracted j k) = SS (fun a b => idg j a b * low i a b + gi a b * (- S3 (fun d => Gmm d a b * dg j i d) + 1 / 2 * (ddg j a i b + ddg j b i a - ddg j i a b))).
Proof.
  transitivity (SS (fun a b => idg j a b * S3 (fun k => g k i * Gmm k a b) + gi a b * S3 (fun k => g k i * dgam j k a b))).
  - unfold dcontracted, Gmm, SS, S3. ring.
  - apply SSe. intros. now rewrite gam_low, dgam_low.
Qed.
Lemma idg_b i j : SS (fun a b => idg j a b * low i a b) = - 2 * SS (fun a b => gi a b * S3 (fun k => Gmm k a j * low i k b)).
Proof.
  unfold idg, Gmm, SS, S3. rewrite !dg_low, !ga_low. unfold S3. rewrite (is D2 D1), (is D3 D1), (is D3 D2). rewrite ?(low_sym _ D1 j), ?(low_sym _ D2 j), ?(low_sym _ D3 j), ?(low_sym i D2 D1), ?(low_sym i D3 D1), ?(low_sym i D3 D2). ring.
Qed.
Lemma con_b j i : SS (fun a b => gi a b * S3 (fun d => Gmm d a b * dg j i d)) = S3 (fun k => contracted k * (low i j k + low k j i)).
Proof. unfold contracted, Gmm, SS, S3. rewrite !dg_low. ring. Qed.
Lemma con_c i j : S3 (fun k => contracted k * low k i j) = SS (fun c d => gi c d * S3 (fun e => Gmm e i j * low e c d)).
Proof. unfold contracted, Gmm, SS, S3. rewrite !ga_low. unfold S3. rewrite (is D2 D1), (is D3 D1), (is D3 D2). ring. Qed.
Lemma bssn_ricci i j : bric contracted dcontracted i j = ric_form gi dg ddg i j.
Proof.
  unfold bric.
  transitivity (- (1 / 2) * SS (fun l m => gi l m * ddg l m i j) + 1 / 2 * (S3 (fun k => g k i * dcontracted j k) + S3 (fun k => g k j * dcontracted i k)) + 1 / 2 * S3 (fun k => contracted k * (low i j k + low j i k))
    + (SS (fun l m => gi l m * S3 (fun k => Gmm k l i * low j k m)) + SS (fun l m => gi l m * S3 (fun k => Gmm k l j * low i k m)) + SS (fun l m => gi l m * S3 (fun k => Gmm k i m * low k l j)))).
  { unfold Gmm, SS, S3. ring. }
  rewrite !dcon_low.
  transitivity (- (1 / 2) * SS (fun l m => gi l m * ddg l m i j) + 1 / 2 * (SS (fun a b => idg j a b * low i a b) + SS (fun a b => idg i a b * low j a b) - SS (fun a b => gi a b * S3 (fun d => Gmm d a b * dg j i d)) - SS (fun a b => gi a b * S3 (fun d => Gmm d a b * dg i j d)))
    + 1 / 4 * (SS (fun a b => gi a b * (ddg j a i b + ddg j b i a - ddg j i a b)) + SS (fun a b => gi a b * (ddg i a j b + ddg i b j a - ddg i j a b)))
    + 1 / 2 * S3 (fun k => contracted k * (low i j k + low j i k))
    + (SS (fun l m => gi l m * S3 (fun k => Gmm k l i * low j k m)) + SS (fun l m => gi l m * S3 (fun k => Gmm k l j * low i k m)) + SS (fun l m => gi l m * S3 (fun k => Gmm k i m * low k l j)))).
  { unfold SS, S3. field. }
  rewrite !idg_b, !con_b.
  transitivity (- (1 / 2) * SS (fun l m => gi l m * ddg l m i j) + 1 / 4 * (SS (fun a b => gi a b * (ddg j a i b + ddg j b i a - ddg j i a b)) + SS (fun a b => gi a b * (ddg i a j b + ddg i b j a - ddg i j a b)))
    - S3 (fun k => contracted k * low k i j) + SS (fun l m => gi l m * S3 (fun k => Gmm k i m * low k l j))).
  { unfold SS, S3. rewrite !(low_sym _ j i). field. }
  rewrite con_c. unfold ric_form, low, Gmm, SS, S3. rewrite !(dds2 j i), (is D2 D1), (is D3 D1), (is D3 D2), ?(ds _ D2 D1), ?(ds _ D3 D1), ?(ds _ D3 D2), ?(ds _ j D1), ?(ds _ j D2), ?(ds _ j D3). field.
Qed.
Let Gm := christoffel gi dg.
Let C (e i j : d3) : R := 2 * (delta e i * f j + delta e j * f i - g i j * cu e).
Let D (e i j : d3) : R := 2 * (f i * g j e + f j * g i e - f e * g i j).
Let N : R := S3 (fun k => cu k * f k).
Let T (j : d3) : R := SS (fun c d => gi c d * low c j d).
Let L (e : d3) : R := SS (fun c d => gi c d * low e c d).
Lemma lowering d i j : S3 (fun e => Gm e i j * g d e) = low d i j.
Proof.
  unfold Gm. transitivity (S3 (fun m => S3 (fun e => gi m e * g e d) * low m i j)).
  - unfold S3. rewrite !ga_low. unfold S3. rewrite (gs D1 d), (gs D2 d), (gs D3 d), (is D2 D1), (is D3 D1), (is D3 D2). ring.
  - unfold S3 at 1. rewrite !I. destruct d; cbn [delta]; ring.
Qed.
Lemma cug d : S3 (fun e => cu e * g d e) = f d.
Proof.
  transitivity (S3 (fun m => S3 (fun e => gi m e * g e d) * f m)).
  - unfold cu, S3. rewrite (gs D1 d), (gs D2 d), (gs D3 d), (is D2 D1), (is D3 D1), (is D3 D2). ring.
  - unfold S3 at 1. rewrite !I. destruct d; cbn [delta]; ring.
Qed.
Let Csum X i c : S3 (fun e => C e i c * X e) = 2 * (f c * X i + f i * X c - g i c * S3 (fun e => cu e * X e)).
Proof. unfold C, S3. destruct i, c; cbn [delta]; ring. Qed.
Let trf Q : SS (fun c d => gi c d * (f c * Q d)) = S3 (fun d => cu d * Q d).
Proof. unfold cu, SS, S3. rewrite (is D2 D1), (is D3 D1), (is D3 D2). ring. Qed.
Let trf2 Q : SS (fun c d => gi c d * (f d * Q c)) = S3 (fun d => cu d * Q d).
Proof. unfold cu, SS, S3. ring. Qed.
Let lin3 (A B K : d3 -> d3 -> R) (x y z : R) : SS (fun c d => gi c d * (x * A c d + y * B c d + z * K c d)) = x * SS (fun c d => gi c d * A c d) + y * SS (fun c d => gi c d * B c d) + z * SS (fun c d => gi c d * K c d).
Proof. unfold SS, S3. ring. Qed.
Let Ts j : SS (fun c d => gi c d * low d j c) = T j.
Proof. unfold T, SS, S3. rewrite (is D2 D1), (is D3 D1), (is D3 D2). ring. Qed.
Let P1 i j : SS (fun c d => gi c d * S3 (fun e => C e i c * low e j d)) = 2 * (S3 (fun d => cu d * low i j d) + f i * T j - S3 (fun e => cu e * low e j i)).
Proof.
  rewrite (SSe _ (fun c d => gi c d * (2 * (f c * low i j d) + (2 * f i) * low c j d + (-2) * (g c i * S3 (fun e => cu e * low e j d))))).
  - rewrite lin3, trf, (con2 (fun d => S3 (fun e => cu e * low e j d))). fold (T j). ring.
  - intros c d. rewrite Csum, (gs c i). ring.
Qed.
Let P2 i j : SS (fun c d => gi c d * S3 (fun e => Gm e i c * D e j d)) = 2 * (f j * T i + S3 (fun c => cu c * low j i c) - S3 (fun e => Gm e i j * f e)).
Proof.
  rewrite (SSe _ (fun c d => gi c d * ((2 * f j) * low d i c + 2 * (f d * low j i c) + (-2) * (g d j * S3 (fun e => Gm e i c * f e))))).
  - rewrite lin3, trf2, (con (fun c => S3 (fun e => Gm e i c * f e))), Ts. ring.
  - intros c d. f_equal. rewrite <- !lowering. unfold D, S3. rewrite (gs d j). ring.
Qed.
Let P3 i j : SS (fun c d => gi c d * S3 (fun e => C e i j * low e c d)) = 2 * (f j * L i + f i * L j - g i j * S3 (fun e => cu e * L e)).
Proof.
  rewrite (SSe _ (fun c d => gi c d * ((2 * f j) * low i c d + (2 * f i) * low j c d + (-2 * g i j) * S3 (fun e => cu e * low e c d)))).
  - rewrite lin3. fold (L i) (L j). replace (SS (fun c d => gi c d * S3 (fun e => cu e * low e c d))) with (S3 (fun e => cu e * L e)); [ring|]. unfold L, SS, S3. ring.
  - intros c d. rewrite Csum. ring.
Qed.
Let trD e : SS (fun c d => gi c d * D e c d) = - 2 * f e.
Proof.
  rewrite (SSe _ (fun c d => gi c d * (2 * (g d e * f c) + 2 * (g c e * f d) + (-2 * f e) * g c d))).
  - rewrite lin3, con, con2, con3. ring.
  - intros c d. unfold D. ring.
Qed.
Let P4 i j : SS (fun c d => gi c d * S3 (fun e => Gm e i j * D e c d)) = - 2 * S3 (fun e => Gm e i j * f e).
Proof.
  transitivity (S3 (fun e => Gm e i j * SS (fun c d => gi c d * D e c d))); [unfold SS, S3; ring|]. unfold S3 at 1. rewrite !trD. unfold S3. ring.
Qed.
Let P6 i j : SS (fun c d => gi c d * S3 (fun e => C e i j * D e c d)) = - 8 * (f i * f j) + 4 * N * g i j.
Proof.
  transitivity (S3 (fun e => C e i j * SS (fun c d => gi c d * D e c d))); [unfold SS, S3; ring|]. rewrite (Csum (fun e => SS (fun c d => gi c d * D e c d))). rewrite !trD.
  replace (S3 (fun e => cu e * SS (fun c d => gi c d * D e c d))) with (- 2 * N); [ring|]. unfold S3 at 1. rewrite !trD. unfold N, S3. ring.
Qed.
Let cuD1 i j : S3 (fun d => cu d * D i j d) = 2 * (N * g i j).
Proof.
  transitivity (2 * (f j * S3 (fun d => cu d * g i d) + N * g i j - f i * S3 (fun d => cu d * g j d))); [|rewrite !cug; ring].
  unfold D, N, S3. rewrite (gs D1 i), (gs D2 i), (gs D3 i), (gs j i). ring.
Qed.
Let cuD2 i j : S3 (fun e => cu e * D e j i) = 2 * (2 * (f i * f j) - N * g i j).
Proof.
  transitivity (2 * (f j * S3 (fun d => cu d * g i d) + f i * S3 (fun d => cu d * g j d) - N * g i j)); [|rewrite !cug; ring].
  unfold D, N, S3. rewrite (gs j i). ring.
Qed.
Let P5 i j : SS (fun c d => gi c d * S3 (fun e => C e i c * D e j d)) = 8 * (N * g i j) + 4 * (f i * f j).
Proof.
  rewrite (SSe _ (fun c d => gi c d * (2 * (f c * D i j d) + (2 * f i) * D c j d + (-2) * (g c i * S3 (fun e => cu e * D e j d))))).
  - rewrite lin3, trf, (con2 (fun d => S3 (fun e => cu e * D e j d))), cuD1, cuD2.
    replace (SS (fun c d => gi c d * D c j d)) with (6 * f j); [ring|]. symmetry.
    rewrite (SSe _ (fun c d => gi c d * ((2 * f j) * g c d + 2 * (g c j * f d) + (-2) * (g d j * f c)))).
    + rewrite lin3, con3, (con f), (con2 f). ring.
    + intros c d. unfold D. rewrite (gs j d), (gs j c), (gs d c). ring.
  - intros c d. rewrite Csum, (gs c i). ring.
Qed.
Let q (i j : d3) : R := 4 * ff i j + 16 * (f i * f j).
Let W (j : d3) : R := SS (fun c d => gi c d * dg c j d).
Let A (h : d3 -> d3 -> d3 -> d3 -> R) (i j c d : d3) : R := 1 / 2 * (h i c j d + h j c i d - h c d i j - h i j c d).
Let WE j : W j = L j + T j.
Proof.
  unfold W. transitivity (SS (fun c d => gi c d * low j c d) + SS (fun c d => gi c d * low d j c)); [|now rewrite Ts]. unfold SS, S3. rewrite !dg_low. rewrite ?(low_sym _ _ j). ring.
Qed.
Let UE j : SS (fun c d => gi c d * dg j c d) = 2 * T j.
Proof. rewrite (SSe _ (fun c d => gi c d * (1 * low c j d + 1 * low d j c + 0 * 0))); [|intros; rewrite (dg_low j); ring]. rewrite lin3, Ts. fold (T j). ring. Qed.
Let P7 i j : SS (fun c d => gi c d * A cddh i j c d) = E * (SS (fun c d => gi c d * A ddg i j c d) + 2 * (f i * (L j - T j) + f j * (L i - T i) + S3 (fun d => cu d * (2 * low d i j - low i d j - low j d i)))
  - 1 / 2 * q i j - 1 / 2 * g i j * SS (fun c d => gi c d * q c d)).
Proof.
  assert (qs : forall i j, q i j = q j i) by (intros; unfold q; rewrite fs; ring).
  transitivity (E * (SS (fun c d => gi c d * A ddg i j c d) + 2 * (f i * W j + S3 (fun d => cu d * dg i j d) + f j * W i + S3 (fun d => cu d * dg j i d) - 2 * S3 (fun d => cu d * dg d i j) - f i * (2 * T j) - f j * (2 * T i))
     + 1 / 2 * (q i j + q j i - g i j * SS (fun c d => gi c d * q c d) - q i j * 3))).
  - rewrite <- !UE. rewrite <- (con (fun c => q i c) j), <- (con (fun c => q j c) i) at 1. rewrite <- con3. rewrite <- (trf (fun d => dg i j d)), <- (trf (fun d => dg j i d)).
    replace (2 * S3 (fun d => cu d * dg d i j)) with (SS (fun c d => gi c d * (f c * dg d i j)) + SS (fun c d => gi c d * (f d * dg c i j))) by (rewrite (trf (fun d => dg d i j)), (trf2 (fun d => dg d i j)); ring).
    unfold W. unfold A, cddh. fold (q i j). unfold SS, S3. rewrite ?(qs j i). rewrite ?(gs j D1), ?(gs j D2), ?(gs j D3), ?(gs i D1), ?(gs i D2), ?(gs i D3). unfold q. field.
  - rewrite !WE. f_equal. rewrite (qs j i). unfold S3. rewrite !(dg_low i), !(dg_low j), !(dg_low D1 i j), !(dg_low D2 i j), !(dg_low D3 i j). rewrite ?(low_sym _ j i), ?(low_sym _ D1 i), ?(low_sym _ D2 i), ?(low_sym _ D3 i), ?(low_sym _ D1 j), ?(low_sym _ D2 j), ?(low_sym _ D3 j). field.
Qed.
Lemma conf_ricci i j : ric_form chi cdh cddh i j = ric_form gi dg ddg i j + rphi i j.
Proof.
  assert (X : ric_form chi cdh cddh i j = / E * SS (fun c d => gi c d * A cddh i j c d) + SS (fun c d => gi c d * S3 (fun e => (Gm e i c + C e i c) * (low e j d + D e j d))) - SS (fun c d => gi c d * S3 (fun e => (Gm e i j + C e i j) * (low e c d + D e c d)))).
  { unfold ric_form. assert (Q : forall e c d, 1 / 2 * (cdh c d e + cdh d c e - cdh e c d) = E * (low e c d + D e c d)) by (intros; unfold cdh, low, D; field).
    assert (Q2 : forall e c d, christoffel chi cdh e c d = Gm e c d + C e c d) by (intros; apply conf_gamma).
    transitivity (SS (fun c d => gi c d / E * (A cddh i j c d + S3 (fun e => (Gm e i c + C e i c) * (E * (low e j d + D e j d)) - (Gm e i j + C e i j) * (E * (low e c d + D e c d)))))).
    - apply SSe. intros c d. unfold chi. f_equal. unfold A. f_equal. apply S3e. intros e. now rewrite !Q, !Q2.
    - unfold SS, S3. field. auto. }
  rewrite X, P7. unfold ric_form.
  assert (Y : forall i j, christoffel gi dg i j = Gm i j) by reflexivity.
  assert (Z0 : SS (fun c d => gi c d * (1 / 2 * (ddg i c j d + ddg j c i d - ddg c d i j - ddg i j c d) + S3 (fun e => christoffel gi dg e i c * (1 / 2 * (dg j d e + dg d j e - dg e j d)) - christoffel gi dg e i j * (1 / 2 * (dg c d e + dg d c e - dg e c d)))))
    = SS (fun c d => gi c d * A ddg i j c d) + SS (fun c d => gi c d * S3 (fun e => Gm e i c * low e j d)) - SS (fun c d => gi c d * S3 (fun e => Gm e i j * low e c d))).
  { unfold A, low, Gm, SS, S3. ring. }
  rewrite Z0. transitivity (/ E * (E * (SS (fun c d => gi c d * A ddg i j c d) + 2 * (f i * (L j - T j) + f j * (L i - T i) + S3 (fun d => cu d * (2 * low d i j - low i d j - low j d i))) - 1 / 2 * q i j - 1 / 2 * g i j * SS (fun c d => gi c d * q c d)))
    + (SS (fun c d => gi c d * S3 (fun e => Gm e i c * low e j d)) + SS (fun c d => gi c d * S3 (fun e => C e i c * low e j d)) + SS (fun c d => gi c d * S3 (fun e => Gm e i c * D e j d)) + SS (fun c d => gi c d * S3 (fun e => C e i c * D e j d)))
    - (SS (fun c d => gi c d * S3 (fun e => Gm e i j * low e c d)) + SS (fun c d => gi c d * S3 (fun e => C e i j * low e c d)) + SS (fun c d => gi c d * S3 (fun e => Gm e i j * D e c d)) + SS (fun c d => gi c d * S3 (fun e => C e i j * D e c d)))).
  { unfold SS, S3. ring. }
  rewrite P1, P2, P3, P4, P5, P6. unfold rphi, cdd, hessian. fold Gm N.
  assert (tq : SS (fun c d => gi c d * q c d) = 4 * SS (fun c d => gi c d * ff c d) + 16 * N). { unfold q, N, cu, SS, S3. rewrite (is D2 D1), (is D3 D1), (is D3 D2). ring. }
  assert (th : trace gi (fun i j => ff i j - S3 (fun k => Gm k i j * f k)) = SS (fun c d => gi c d * ff c d) - S3 (fun e => cu e * L e)).
  { unfold trace. transitivity (SS (fun c d => gi c d * ff c d) - S3 (fun k => f k * SS (fun c d => gi c d * Gm k c d))); [unfold SS, S3; ring|]. f_equal.
    assert (K1 : forall k, SS (fun c d => gi c d * Gm k c d) = S3 (fun m => gi k m * L m)) by (intros k; unfold Gm, L, SS, S3; rewrite !ga_low; unfold S3; ring).
    unfold S3 at 1. rewrite !K1. unfold cu, S3. rewrite (is D2 D1), (is D3 D1), (is D3 D2). ring. }
  assert (gu : S3 (fun e => Gm e i j * f e) = S3 (fun d => cu d * low d i j)). { unfold Gm, S3. rewrite !ga_low. unfold cu, S3. rewrite (is D2 D1), (is D3 D1), (is D3 D2). ring. }
  change (trace gi (fun i0 j0 => ff i0 j0 - S3 (fun k => Gm k i0 j0 * f k))) with (trace gi (fun i j => ff i j - S3 (fun k => Gm k i j * f k))). 
  replace (S3 (fun k => Gm k i j * f k)) with (S3 (fun d => cu d * low d i j)) by (symmetry; exact gu).
  rewrite th, tq. unfold q. unfold S3. rewrite ?(low_sym _ j i), ?(low_sym _ j D1), ?(low_sym _ j D2), ?(low_sym _ j D3), ?(low_sym _ i D1), ?(low_sym _ i D2), ?(low_sym _ i D3). field. auto.
Qed.
End C.
