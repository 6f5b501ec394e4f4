(** Algebra for C120: the contracted connection of a Kerr-Schild space-time in terms of lapse, shift, curvature and connection of its slices. *)
From Verif Require Import Rutil Coord_model Coord_spec Adm_model Adm_spec Ks_spec.
From Coq Require Import Lia.
Local Open Scope R_scope.
Section ALG.
Variables (H : R) (l h : d3 -> R) (dl : d3 -> d3 -> R) (al : R).
Hypothesis N : S3 (fun i => l i * l i) = 1.
Hypothesis V : forall k, S3 (fun i => l i * dl i k) = 0.
Hypothesis P : 1 + 2 * H <> 0.
Hypothesis A0 : al <> 0.
Hypothesis AA : al * al = / (1 + 2 * H).
Definition a_gi (i j : d3) : R := delta i j - 2 * H / (1 + 2 * H) * l i * l j.
Definition a_g (i j : d3) : R := delta i j + 2 * H * l i * l j.
Definition a_dg (q i j : d3) : R := 2 * (h q * l i * l j + H * (dl i q * l j + l i * dl j q)).
Definition a_b (i : d3) : R := 2 * H * l i / (1 + 2 * H).
Definition a_db (q i : d3) : R := 2 * (dl i q * H + h q * l i) / (1 + 2 * H) - 4 * h q * H * l i / ((1 + 2 * H) * (1 + 2 * H)).
Definition a_hl : R := S3 (fun i => l i * h i).
Definition a_th : R := S3 (fun i => dl i i).
Definition a_D (i : d3) : R := S3 (fun k => l k * dl i k).
Lemma lD : S3 (fun i => l i * a_D i) = 0.
Proof. transitivity (S3 (fun k => l k * S3 (fun i => l i * dl i k))); [unfold a_D, S3; ring|]. unfold S3 at 1. rewrite !V. ring. Qed.
(** raising an index *)
Lemma up_gen v i : S3 (fun j => a_gi i j * v j) = v i - 2 * H / (1 + 2 * H) * l i * S3 (fun j => l j * v j).
Proof. unfold a_gi, S3. destruct i; cbn [delta]; ring. Qed.
Lemma up_l i : S3 (fun j => a_gi i j * l j) = l i / (1 + 2 * H).
Proof. rewrite up_gen, N. field. exact P. Qed.
Lemma gi_sym i j : a_gi i j = a_gi j i.
Proof. unfold a_gi. destruct i, j; cbn [delta]; ring. Qed.
Lemma tr_dg q : SS (fun i j => a_gi i j * a_dg q i j) = 2 * h q / (1 + 2 * H).
Proof.
  transitivity (2 * h q * S3 (fun i => l i * S3 (fun j => a_gi i j * l j)) + 2 * H * (S3 (fun i => dl i q * S3 (fun j => a_gi i j * l j)) + S3 (fun j => dl j q * S3 (fun i => a_gi i j * l i)))).
  { unfold SS, S3, a_dg. ring. }
  unfold S3 at 1 3 5. rewrite !up_l.
  assert (U : forall j, S3 (fun i => a_gi i j * l i) = l j / (1 + 2 * H)). { intros j. rewrite <- up_l. unfold S3. now rewrite !(gi_sym _ j). }
  rewrite !U. transitivity ((2 * h q * S3 (fun i => l i * l i) + 4 * H * S3 (fun i => l i * dl i q)) / (1 + 2 * H)); [unfold S3; field; exact P|]. rewrite N, V. field. exact P.
Qed.
Lemma div_dg p : SS (fun i k => a_gi i k * a_dg i p k) = 2 * (l p * a_hl / (1 + 2 * H) + H * a_D p / (1 + 2 * H) + H * l p * a_th).
Proof.
  transitivity (2 * (l p * S3 (fun i => h i * S3 (fun k => a_gi i k * l k)) + H * S3 (fun i => dl p i * S3 (fun k => a_gi i k * l k)) + H * l p * (a_th - 2 * H / (1 + 2 * H) * S3 (fun i => l i * S3 (fun k => l k * dl k i))))).
  { unfold SS, a_dg, a_th, S3. unfold a_gi at 1 2 3 4 5 6 7 8 9. unfold a_gi. cbn [delta]. field. exact P. }
  unfold S3 at 1 3 5. rewrite !up_l, !V. unfold a_hl, a_D, S3. field. exact P.
Qed.
Definition a_G3 (j : d3) : R := S3 (fun p => a_gi j p * (SS (fun i k => a_gi i k * a_dg i p k) - / 2 * SS (fun i k => a_gi i k * a_dg p i k))).
Lemma G3_v j : a_G3 j = 2 * (l j * a_hl / (1 + 2 * H) + H * a_D j + H * l j * a_th) / (1 + 2 * H) - (h j - 2 * H / (1 + 2 * H) * l j * a_hl) / (1 + 2 * H).
Proof.
  unfold a_G3. unfold S3 at 1. rewrite !div_dg, !tr_dg.
  transitivity ((2 * a_hl / (1 + 2 * H) + 2 * H * a_th) * S3 (fun p => a_gi j p * l p) + 2 * H / (1 + 2 * H) * S3 (fun p => a_gi j p * a_D p) - / (1 + 2 * H) * S3 (fun p => a_gi j p * h p)).
  { unfold S3. field. exact P. }
  rewrite up_l, (up_gen a_D), (up_gen h), lD. fold a_hl. field. exact P.
Qed.
Lemma G3_trace j : trace a_gi (Adm_spec.christoffel a_gi a_dg j) = a_G3 j.
Proof. unfold trace, SS, Adm_spec.christoffel, a_G3, SS, S3. rewrite !(gi_sym D2 D1), !(gi_sym D3 D1), !(gi_sym D3 D2). field. Qed.
(** trace of the curvature of the stationary slice *)
Lemma gi_g i k : S3 (fun j => a_gi i j * a_g k j) = delta i k.
Proof.
  rewrite up_gen. transitivity (delta i k + 2 * H * l k * l i * (1 - 2 * H / (1 + 2 * H) * S3 (fun j => l j * l j) - / (1 + 2 * H))).
  { unfold a_g, S3. destruct i, k; cbn [delta]; field; exact P. }
  rewrite N. field. exact P.
Qed.
Lemma div_b : S3 (fun k => a_db k k) = 2 * (H * a_th + a_hl) / (1 + 2 * H) - 4 * a_hl * H / ((1 + 2 * H) * (1 + 2 * H)).
Proof. unfold a_db, a_th, a_hl, S3. field. exact P. Qed.
Lemma trK : trace a_gi (stationary_K a_g al a_b a_dg a_db) = (2 * (H * a_th + a_hl) / (1 + 2 * H) - 2 * H * a_hl / ((1 + 2 * H) * (1 + 2 * H))) / al.
Proof.
  transitivity ((S3 (fun k => a_b k * SS (fun i j => a_gi i j * a_dg k i j)) + 2 * S3 (fun i => S3 (fun k => S3 (fun j => a_gi i j * a_g k j) * a_db i k))) / (2 * al)).
  { unfold trace, stationary_K, SS, S3. rewrite !(gi_sym D2 D1), !(gi_sym D3 D1), !(gi_sym D3 D2).
    assert (GS : forall i j, a_g i j = a_g j i) by (intros i j; unfold a_g; destruct i, j; cbn [delta]; ring). rewrite !(GS D2 D1), !(GS D3 D1), !(GS D3 D2). field. exact A0. }
  unfold S3 at 1 2 3. rewrite !tr_dg, !gi_g. cbn [delta].
  transitivity ((S3 (fun k => a_b k * (2 * h k / (1 + 2 * H))) + 2 * S3 (fun k => a_db k k)) / (2 * al)); [unfold S3; rewrite ?gi_g; cbn [delta]; field; split; assumption|].
  rewrite div_b. unfold a_b. unfold a_hl at 3. unfold a_hl, S3. field. split; assumption.
Qed.
Definition a_da (i : d3) : R := - al * h i / (1 + 2 * H).
(** the contracted connection of the space-time *)
Definition a_Gt : R := - 2 * (a_hl + H * a_th).
Definition a_Gs (j : d3) : R := 2 * (a_hl * l j + H * (a_D j + l j * a_th)).
Lemma Gt_split : trace a_gi (stationary_K a_g al a_b a_dg a_db) - S3 (fun i => a_b i * a_da i) / (al * al) + al * a_Gt = 0.
Proof.
  rewrite trK. apply (Rmult_eq_reg_l al); [|exact A0].
  transitivity (2 * (H * a_th + a_hl) / (1 + 2 * H) - 2 * H * a_hl / ((1 + 2 * H) * (1 + 2 * H)) - S3 (fun i => a_b i * (- h i / (1 + 2 * H))) + (al * al) * a_Gt).
  { unfold a_da, S3. field. split; assumption. }
  rewrite AA. unfold a_Gt, a_b, a_hl, S3. field. exact P.
Qed.
Lemma Gs_split j : a_G3 j - S3 (fun i => a_gi j i * a_da i) / al + S3 (fun i => a_b i * a_db i j) / (al * al) - a_Gt * a_b j - a_Gs j = 0.
Proof.
  rewrite G3_v. replace (S3 (fun i => a_gi j i * a_da i) / al) with (- (h j - 2 * H / (1 + 2 * H) * l j * a_hl) / (1 + 2 * H)).
  2:{ transitivity (- / (1 + 2 * H) * S3 (fun i => a_gi j i * h i)); [rewrite (up_gen h); unfold a_hl; field; exact P|unfold a_da, S3; field; split; assumption]. }
  rewrite AA. replace (S3 (fun i => a_b i * a_db i j)) with (2 * H / (1 + 2 * H) * (2 * (H * a_D j + a_hl * l j) / (1 + 2 * H) - 4 * a_hl * H * l j / ((1 + 2 * H) * (1 + 2 * H)))).
  2:{ unfold a_b, a_db, a_D, a_hl, S3. field. exact P. }
  unfold a_Gt, a_Gs, a_b. field. exact P.
Qed.
End ALG.
