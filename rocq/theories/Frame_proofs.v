(** The constraints at one point do not depend on the frame: tensors may be replaced by their components with respect to three vectors Q _ D1, Q _ D2, Q _ D3. *)
From Verif Require Import Rutil Coord_model Coord_spec Adm_model Adm_spec Adm_proofs Adm2_proofs Adm_props.
Local Open Scope R_scope.
Section FR.
Variable Q : d3 -> d3 -> R.
Definition t1 (T : d3 -> R) (a : d3) : R := S3 (fun i => Q i a * T i).
Definition t2 (T : d3 -> d3 -> R) (a b : d3) : R := t1 (fun i => t1 (fun j => T i j) b) a.
Definition t3 (T : d3 -> d3 -> d3 -> R) (a b c : d3) : R := t1 (fun i => t2 (fun j k => T i j k) b c) a.
Definition t4 (T : d3 -> d3 -> d3 -> d3 -> R) (a b c d : d3) : R := t2 (fun i j => t2 (fun k l => T i j k l) c d) a b.
Lemma t1_ext T U a : (forall i, T i = U i) -> t1 T a = t1 U a.
Proof. intros E. unfold t1, S3. now rewrite !E. Qed.
Lemma t2_ext T U a b : (forall i j, T i j = U i j) -> t2 T a b = t2 U a b.
Proof. intros E. apply t1_ext. intros i. apply t1_ext. intros j. apply E. Qed.
Lemma t3_ext T U a b c : (forall i j k, T i j k = U i j k) -> t3 T a b c = t3 U a b c.
Proof. intros E. apply t1_ext. intros i. apply t2_ext. intros j k. apply E. Qed.
Lemma SS_ext f g : (forall i j, f i j = g i j) -> SS f = SS g.
Proof. intros E. apply S3_ext. intros i. apply S3_ext. intros j. apply E. Qed.
Lemma t1_scal c T a : t1 (fun i => c * T i) a = c * t1 T a. Proof. unfold t1, S3. ring. Qed.
Lemma t1_scalr c T a : t1 (fun i => T i * c) a = t1 T a * c. Proof. unfold t1, S3. ring. Qed.
Lemma t1_plus T U a : t1 (fun i => T i + U i) a = t1 T a + t1 U a. Proof. unfold t1, S3. ring. Qed.
Lemma t1_minus T U a : t1 (fun i => T i - U i) a = t1 T a - t1 U a. Proof. unfold t1, S3. ring. Qed.
Lemma t1_SS T a : t1 (fun i => SS (fun c d => T i c d)) a = SS (fun c d => t1 (fun i => T i c d) a).
Proof. unfold t1, SS, S3. ring. Qed.
Lemma t1_swap T a b : t1 (fun i => t1 (fun j => T i j) b) a = t1 (fun j => t1 (fun i => T i j) a) b.
Proof. unfold t1, S3. ring. Qed.
Lemma t2_scal c T a b : t2 (fun i j => c * T i j) a b = c * t2 T a b.
Proof. unfold t2. rewrite <- t1_scal. apply t1_ext. intros i. apply t1_scal. Qed.
Lemma t2_plus T U a b : t2 (fun i j => T i j + U i j) a b = t2 T a b + t2 U a b.
Proof. unfold t2. rewrite <- t1_plus. apply t1_ext. intros i. apply t1_plus. Qed.
Lemma t2_minus T U a b : t2 (fun i j => T i j - U i j) a b = t2 T a b - t2 U a b.
Proof. unfold t2. rewrite <- t1_minus. apply t1_ext. intros i. apply t1_minus. Qed.
Lemma t2_SS T a b : t2 (fun i j => SS (fun c d => T i j c d)) a b = SS (fun c d => t2 (fun i j => T i j c d) a b).
Proof. unfold t2. rewrite <- t1_SS. apply t1_ext. intros i. apply t1_SS. Qed.
Lemma t2_swap T a b : t2 (fun i j => T i j) a b = t2 (fun j i => T i j) b a.
Proof. apply t1_swap. Qed.
Variables hi hi' : d3 -> d3 -> R.
Hypothesis HQ : forall i j, hi i j = SS (fun a b => Q i a * Q j b * hi' a b).
Lemma contr2 Y : SS (fun i j => hi i j * Y i j) = SS (fun a b => hi' a b * t2 Y a b).
Proof. unfold t2, t1, SS, S3. rewrite !HQ. unfold SS, S3. ring. Qed.
Lemma trace_fr T : trace hi T = trace hi' (t2 T).
Proof. apply contr2. Qed.
Lemma square_fr T : square hi T = square hi' (t2 T).
Proof.
  transitivity (SS (fun i k => hi i k * SS (fun j l => hi j l * (T i j * T k l)))); [unfold square, SS, S3; ring|].
  rewrite contr2. transitivity (SS (fun a c => hi' a c * SS (fun b d => hi' b d * (t2 T a b * t2 T c d)))); [|unfold square, SS, S3; ring].
  apply SS_ext. intros a c. f_equal. transitivity (t2 (fun i k => SS (fun b d => hi' b d * t2 (fun j l => T i j * T k l) b d)) a c); [apply t2_ext; intros; apply contr2|].
  rewrite t2_SS. apply SS_ext. intros b d. rewrite t2_scal. f_equal. unfold t2, t1, S3. ring.
Qed.
Section METRIC.
Variable dh : d3 -> d3 -> d3 -> R.
Let G (l i c : d3) : R := 1 / 2 * (dh i l c + dh c l i - dh l i c).
Let G' (l i c : d3) : R := 1 / 2 * (t3 dh i l c + t3 dh c l i - t3 dh l i c).
Lemma t3_G l i c : t3 G l i c = G' l i c.
Proof. unfold G, G', t3, t2, t1, S3. ring. Qed.
Lemma chr_G e i c : christoffel hi dh e i c = S3 (fun l => hi e l * G l i c).
Proof. unfold christoffel, G, S3. ring. Qed.
Lemma chr_G' e i c : christoffel hi' (t3 dh) e i c = S3 (fun l => hi' e l * G' l i c).
Proof. unfold christoffel, G', S3. ring. Qed.
(** a Christoffel symbol contracted with V *)
Lemma chr_contr V i c : S3 (fun e => christoffel hi dh e i c * V e) = SS (fun e l => hi' e l * (t1 V e * t1 (fun l => G l i c) l)).
Proof.
  transitivity (SS (fun e l => hi e l * (V e * G l i c))); [unfold SS, S3; rewrite !chr_G; unfold S3; ring|]. rewrite contr2. apply SS_ext. intros a b. f_equal. unfold t2, t1, S3. ring.
Qed.
Lemma chr_contr' V i c : S3 (fun e => christoffel hi' (t3 dh) e i c * V e) = SS (fun e l => hi' e l * (V e * G' l i c)).
Proof. unfold SS, S3. rewrite !chr_G'. unfold S3. ring. Qed.
Lemma ric_fr ddh a b : t2 (ric_form hi dh ddh) a b = ric_form hi' (t3 dh) (t4 ddh) a b.
Proof.
  unfold ric_form. rewrite t2_SS.
  set (H2 := fun i j c d => 1 / 2 * (ddh i c j d + ddh j c i d - ddh c d i j - ddh i j c d)).
  set (X1 := fun i j c d => S3 (fun e => christoffel hi dh e i c * (1 / 2 * (dh j d e + dh d j e - dh e j d)))).
  set (X2 := fun i j c d => S3 (fun e => christoffel hi dh e i j * (1 / 2 * (dh c d e + dh d c e - dh e c d)))).
  transitivity (SS (fun c d => hi c d * t2 (fun i j => H2 i j c d + (X1 i j c d - X2 i j c d)) a b)).
  { apply SS_ext. intros c d. rewrite t2_scal. f_equal. apply t2_ext. intros i j. unfold H2, X1, X2, S3. ring. }
  rewrite contr2. apply SS_ext. intros c' d'. f_equal.
  transitivity (t2 (fun c d => t2 (fun i j => H2 i j c d) a b) c' d' + (t2 (fun c d => t2 (fun i j => X1 i j c d) a b) c' d' - t2 (fun c d => t2 (fun i j => X2 i j c d) a b) c' d')).
  { rewrite <- t2_minus, <- t2_plus. apply t2_ext. intros c d. rewrite <- t2_minus, <- t2_plus. reflexivity. }
  f_equal; [|transitivity (S3 (fun e => christoffel hi' (t3 dh) e a c' * (1 / 2 * (t3 dh b d' e + t3 dh d' b e - t3 dh e b d'))) - S3 (fun e => christoffel hi' (t3 dh) e a b * (1 / 2 * (t3 dh c' d' e + t3 dh d' c' e - t3 dh e c' d')))); [f_equal|unfold S3; ring]].
  - unfold H2, t4, t2, t1, S3. ring.
  - rewrite chr_contr'. transitivity (t2 (fun c d => t2 (fun i j => SS (fun e l => hi' e l * (t1 (fun e => 1 / 2 * (dh j d e + dh d j e - dh e j d)) e * t1 (fun l => G l i c) l))) a b) c' d').
    { apply t2_ext. intros c d. apply t2_ext. intros i j. apply chr_contr. }
    transitivity (SS (fun e l => t2 (fun c d => t2 (fun i j => hi' e l * (t1 (fun e => 1 / 2 * (dh j d e + dh d j e - dh e j d)) e * t1 (fun l => G l i c) l)) a b) c' d')).
    { rewrite <- t2_SS. apply t2_ext. intros c d. now rewrite <- t2_SS. }
    apply SS_ext. intros e l. transitivity (hi' e l * t2 (fun c d => t2 (fun i j => t1 (fun e => 1 / 2 * (dh j d e + dh d j e - dh e j d)) e * t1 (fun l => G l i c) l) a b) c' d').
    { rewrite <- t2_scal. apply t2_ext. intros c d. now rewrite <- t2_scal. }
    f_equal. transitivity (t1 (fun j => t1 (fun d => t1 (fun e => 1 / 2 * (dh j d e + dh d j e - dh e j d)) e) d') b * t1 (fun i => t1 (fun c => t1 (fun l => G l i c) l) c') a).
    { set (V := fun j d => t1 (fun e => 1 / 2 * (dh j d e + dh d j e - dh e j d)) e). set (W := fun i c => t1 (fun l => G l i c) l). change (t2 (fun c d => t2 (fun i j => V j d * W i c) a b) c' d' = t1 (fun j => t1 (fun d => V j d) d') b * t1 (fun i => t1 (fun c => W i c) c') a). clearbody V W. unfold t2, t1, S3. ring. }
    f_equal; [unfold t3, t2, t1, S3; ring|]. rewrite <- t3_G. unfold t3, t2, t1, S3. ring.
  - rewrite chr_contr'. transitivity (t2 (fun c d => t2 (fun i j => SS (fun e l => hi' e l * (t1 (fun e => 1 / 2 * (dh c d e + dh d c e - dh e c d)) e * t1 (fun l => G l i j) l))) a b) c' d').
    { apply t2_ext. intros c d. apply t2_ext. intros i j. apply chr_contr. }
    transitivity (SS (fun e l => t2 (fun c d => t2 (fun i j => hi' e l * (t1 (fun e => 1 / 2 * (dh c d e + dh d c e - dh e c d)) e * t1 (fun l => G l i j) l)) a b) c' d')).
    { rewrite <- t2_SS. apply t2_ext. intros c d. now rewrite <- t2_SS. }
    apply SS_ext. intros e l. transitivity (hi' e l * t2 (fun c d => t2 (fun i j => t1 (fun e => 1 / 2 * (dh c d e + dh d c e - dh e c d)) e * t1 (fun l => G l i j) l) a b) c' d').
    { rewrite <- t2_scal. apply t2_ext. intros c d. now rewrite <- t2_scal. }
    f_equal. transitivity (t1 (fun c => t1 (fun d => t1 (fun e => 1 / 2 * (dh c d e + dh d c e - dh e c d)) e) d') c' * t1 (fun i => t1 (fun j => t1 (fun l => G l i j) l) b) a).
    { set (V := fun c d => t1 (fun e => 1 / 2 * (dh c d e + dh d c e - dh e c d)) e). set (W := fun i j => t1 (fun l => G l i j) l). change (t2 (fun c d => t2 (fun i j => V c d * W i j) a b) c' d' = t1 (fun c => t1 (fun d => V c d) d') c' * t1 (fun i => t1 (fun j => W i j) b) a). clearbody V W. unfold t2, t1, S3. ring. }
    f_equal; [unfold t3, t2, t1, S3; ring|]. rewrite <- t3_G. unfold t3, t2, t1, S3. ring.
Qed.
Lemma hess_fr da dda a b : t2 (hessian (christoffel hi dh) da dda) a b = hessian (christoffel hi' (t3 dh)) (t1 da) (t2 dda) a b.
Proof.
  unfold hessian. rewrite t2_minus. f_equal. rewrite chr_contr'. transitivity (t2 (fun i j => SS (fun e l => hi' e l * (t1 da e * t1 (fun l => G l i j) l))) a b); [apply t2_ext; intros; apply chr_contr|].
  rewrite t2_SS. apply SS_ext. intros e l. rewrite t2_scal. f_equal. rewrite t2_scal. f_equal. rewrite <- t3_G. unfold t3, t2, t1, S3. ring.
Qed.
Lemma cov_fr K dK a b c : t3 (cov (christoffel hi dh) K dK) a b c = cov (christoffel hi' (t3 dh)) (t2 K) (t3 dK) a b c.
Proof.
  unfold cov. set (X1 := fun k i j => S3 (fun l => christoffel hi dh l k i * K l j)). set (X2 := fun k i j => S3 (fun l => christoffel hi dh l k j * K i l)).
  transitivity (t3 dK a b c - (t3 X1 a b c + t3 X2 a b c)). { transitivity (t3 (fun k i j => dK k i j - (X1 k i j + X2 k i j)) a b c); [apply t3_ext; intros; unfold X1, X2, S3; ring|]. unfold t3, t2, t1, S3. ring. }
  f_equal. transitivity (S3 (fun l => christoffel hi' (t3 dh) l a b * t2 K l c) + S3 (fun l => christoffel hi' (t3 dh) l a c * t2 K b l)); [|unfold S3; ring]. rewrite !chr_contr'. f_equal.
  - transitivity (t3 (fun k i j => SS (fun e l => hi' e l * (t1 (fun e => K e j) e * t1 (fun l => G l k i) l))) a b c); [apply t3_ext; intros; apply chr_contr|].
    transitivity (SS (fun e l => t3 (fun k i j => hi' e l * (t1 (fun e => K e j) e * t1 (fun l => G l k i) l)) a b c)). { unfold t3. rewrite <- t1_SS. apply t1_ext. intros k. now rewrite <- t2_SS. }
    apply SS_ext. intros e l. rewrite <- t3_G. set (V := fun j => t1 (fun e => K e j) e). set (W := fun k i => t1 (fun l => G l k i) l). replace (t2 K e c) with (t1 V c) by (unfold V, t2, t1, S3; ring). replace (t3 G l a b) with (t1 (fun k => t1 (fun i => W k i) b) a) by (unfold W, t3, t2, t1, S3; ring).
    change (t3 (fun k i j => hi' e l * (V j * W k i)) a b c = hi' e l * (t1 V c * t1 (fun k => t1 (fun i => W k i) b) a)). clearbody V W. unfold t3, t2, t1, S3. ring.
  - transitivity (t3 (fun k i j => SS (fun e l => hi' e l * (t1 (fun e => K i e) e * t1 (fun l => G l k j) l))) a b c); [apply t3_ext; intros; apply chr_contr|].
    transitivity (SS (fun e l => t3 (fun k i j => hi' e l * (t1 (fun e => K i e) e * t1 (fun l => G l k j) l)) a b c)). { unfold t3. rewrite <- t1_SS. apply t1_ext. intros k. now rewrite <- t2_SS. }
    apply SS_ext. intros e l. rewrite <- t3_G. set (V := fun i => t1 (fun e => K i e) e). set (W := fun k j => t1 (fun l => G l k j) l). replace (t2 K b e) with (t1 V b) by (unfold V, t2, t1, S3; ring). replace (t3 G l a c) with (t1 (fun k => t1 (fun j => W k j) c) a) by (unfold W, t3, t2, t1, S3; ring).
    change (t3 (fun k i j => hi' e l * (V i * W k j)) a b c = hi' e l * (t1 V b * t1 (fun k => t1 (fun j => W k j) c) a)). clearbody V W. unfold t3, t2, t1, S3. ring.
Qed.
End METRIC.
Lemma mom_fr D a : t1 (momentum hi D) a = momentum hi' (t3 D) a.
Proof.
  unfold momentum. rewrite t1_minus, !t1_SS. f_equal.
  - transitivity (SS (fun j k => hi j k * t1 (fun i => D j i k) a)); [apply SS_ext; intros; apply t1_scal|]. rewrite contr2. apply SS_ext. intros b c. f_equal. unfold t3, t2, t1, S3. ring.
  - transitivity (SS (fun j k => hi j k * t1 (fun i => D i j k) a)); [apply SS_ext; intros; apply t1_scal|]. rewrite contr2. apply SS_ext. intros b c. f_equal. unfold t3, t2, t1, S3. ring.
Qed.
Lemma trd_fr D a : t1 (fun k => trace hi (fun i j => D k i j)) a = trace hi' (fun i j => t3 D a i j).
Proof. transitivity (t1 (fun k => SS (fun i j => hi' i j * t2 (fun i j => D k i j) i j)) a); [apply t1_ext; intros; apply contr2|]. rewrite t1_SS. unfold trace. apply SS_ext. intros i j. rewrite t1_scal. reflexivity. Qed.
End FR.
