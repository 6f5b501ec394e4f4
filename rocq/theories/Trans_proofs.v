(** Lemmas on partial derivatives of products and quotients, and on functions that agree near a point. *)
From Verif Require Import Rutil Coord_model Coord_spec Cart_spec Cart3_proofs Trans_model.
Local Open Scope R_scope.
Lemma pd_ext f g j X Y Z l : (forall a b c, f a b c = g a b c) -> pd f j X Y Z l -> pd g j X Y Z l.
Proof. intros H. rewrite !pd_slice. apply derivable_pt_lim_ext. intros t. destruct j; cbn; apply H. Qed.
Lemma pd_plus f g j X Y Z l l' : pd f j X Y Z l -> pd g j X Y Z l' -> pd (fun a b c => f a b c + g a b c) j X Y Z (l + l').
Proof. destruct j; cbn; intros; now apply (derivable_pt_lim_plus (fun t => _) (fun t => _)). Qed.
Lemma pd_minus f g j X Y Z l l' : pd f j X Y Z l -> pd g j X Y Z l' -> pd (fun a b c => f a b c - g a b c) j X Y Z (l - l').
Proof. destruct j; cbn; intros; now apply (derivable_pt_lim_minus (fun t => _) (fun t => _)). Qed.
Lemma pd_opp f j X Y Z l : pd f j X Y Z l -> pd (fun a b c => - f a b c) j X Y Z (- l).
Proof. destruct j; cbn; intros; now apply (derivable_pt_lim_opp (fun t => _)). Qed.
Lemma pd_mult f g j X Y Z l l' : pd f j X Y Z l -> pd g j X Y Z l' -> pd (fun a b c => f a b c * g a b c) j X Y Z (l * g X Y Z + f X Y Z * l').
Proof. destruct j; cbn; intros; now apply (derivable_pt_lim_mult (fun t => _) (fun t => _)). Qed.
Lemma pd_div f g j X Y Z l l' : pd f j X Y Z l -> pd g j X Y Z l' -> g X Y Z <> 0 -> pd (fun a b c => f a b c / g a b c) j X Y Z ((l * g X Y Z - l' * f X Y Z) / Rsqr (g X Y Z)).
Proof. destruct j; cbn; intros; now apply (derivable_pt_lim_div (fun t => _) (fun t => _)). Qed.
Lemma pd_const k j X Y Z : pd (fun _ _ _ => k) j X Y Z 0.
Proof. destruct j; cbn; apply derivable_pt_lim_const. Qed.
Lemma near_and (P Q : R -> R -> R -> Prop) X Y Z : near P X Y Z -> near Q X Y Z -> near (fun a b c => P a b c /\ Q a b c) X Y Z.
Proof.
  intros (d & Pd & H) (e & Pe & K). exists (Rmin d e). split; [now apply Rmin_glb_lt|]. intros a b c Ha Hb Hc.
  split; [apply H|apply K]; eapply Rlt_le_trans; eauto using Rmin_l, Rmin_r.
Qed.
Lemma near_imp (P Q : R -> R -> R -> Prop) X Y Z : (forall a b c, P a b c -> Q a b c) -> near P X Y Z -> near Q X Y Z.
Proof. intros H (d & Pd & K). exists d. split; auto. Qed.
Lemma near_here (P : R -> R -> R -> Prop) X Y Z : near P X Y Z -> P X Y Z.
Proof. intros (d & Pd & K). apply K; rewrite Rminus_diag_eq, Rabs_R0; auto. Qed.
Lemma pd_near f g j X Y Z l : near (fun a b c => f a b c = g a b c) X Y Z -> pd f j X Y Z l -> pd g j X Y Z l.
Proof.
  intros (d & Pd & K). rewrite !pd_slice. intros H eps He. destruct (H eps He) as (e & Ke).
  assert (P0 : 0 < Rmin d e) by (apply Rmin_glb_lt; [auto|apply cond_pos]). exists (mkposreal _ P0). cbn [pos]. intros h N Hh.
  assert (H1 : Rabs h < d) by (eapply Rlt_le_trans; [apply Hh|apply Rmin_l]). assert (H2 : Rabs h < e) by (eapply Rlt_le_trans; [apply Hh|apply Rmin_r]).
  specialize (Ke h N H2). assert (Z0 : forall x, Rabs (x - x) < d) by (intros x; rewrite Rminus_diag_eq, Rabs_R0; auto).
  assert (Zh : forall x, Rabs (x + h - x) < d) by (intros x; replace (x + h - x) with h by ring; auto).
  destruct j; cbn [slice co] in *; rewrite <- !K; auto.
Qed.
Lemma S3_ext f g : (forall k, f k = g k) -> S3 f = S3 g.
Proof. intros H. unfold S3. now rewrite !H. Qed.
Lemma acc_S3 f : acc f 0 = S3 f. Proof. unfold acc, each, S3. cbn [fold_left]. ring. Qed.
(** the pieces of the inverse: cofactors *)
Definition adj (m : mat) : mat := fun i j => dXdx_from_dxdX m i j * (if Req_EM_T (DetOf3Dmatrix m) 0 then dequaleps * dequaleps * dequaleps else DetOf3Dmatrix m).
Lemma eps3 : dequaleps * dequaleps * dequaleps <> 0.
Proof. unfold dequaleps. assert (H : / 10000000000 <> 0) by (apply Rinv_neq_0_compat; lra). repeat apply Rmult_integral_contrapositive_currified; auto. Qed.
Lemma inv_left m : DetOf3Dmatrix m <> 0 -> forall i j, S3 (fun k => dXdx_from_dxdX m i k * m k j) = delta i j.
Proof.
  intros N i j. unfold dXdx_from_dxdX. destruct (Req_EM_T _ _) as [E|_]; [contradiction|].
  unfold S3. destruct i, j; cbn [delta]; unfold DetOf3Dmatrix in *; field; exact N.
Qed.
Lemma det_mul A B : DetOf3Dmatrix (fun i j => S3 (fun k => A i k * B k j)) = DetOf3Dmatrix A * DetOf3Dmatrix B.
Proof. unfold DetOf3Dmatrix, S3. ring. Qed.
Lemma det_ext A B : (forall i j, A i j = B i j) -> DetOf3Dmatrix A = DetOf3Dmatrix B.
Proof. intros H. unfold DetOf3Dmatrix. now rewrite !H. Qed.
Lemma det_delta : DetOf3Dmatrix delta = 1. Proof. unfold DetOf3Dmatrix. cbn. ring. Qed.
Lemma left_det A B : (forall i j, S3 (fun k => A i k * B k j) = delta i j) -> DetOf3Dmatrix B <> 0 /\ DetOf3Dmatrix A <> 0.
Proof. intros H. assert (E := det_mul A B). rewrite (det_ext _ delta H), det_delta in E. split; intros Z; rewrite Z in E; lra. Qed.
(** inverses are unique *)
Lemma left_unique A B : (forall i j, S3 (fun k => A i k * B k j) = delta i j) -> forall i j, A i j = dXdx_from_dxdX B i j.
Proof.
  intros H i j. destruct (left_det A B H) as (NB & _). assert (K := left_right _ _ (inv_left B NB)).
  transitivity (S3 (fun l => A i l * delta l j)); [now rewrite S3_delta_r|].
  transitivity (S3 (fun l => A i l * S3 (fun k => B l k * dXdx_from_dxdX B k j))). { apply S3_ext. intros l. now rewrite K. }
  transitivity (S3 (fun k => S3 (fun l => A i l * B l k) * dXdx_from_dxdX B k j)); [unfold S3; ring|].
  transitivity (S3 (fun k => delta i k * dXdx_from_dxdX B k j)). { apply S3_ext. intros k. now rewrite H. }
  unfold S3. destruct i; cbn [delta]; ring.
Qed.
(** the entries of the inverse matrix are differentiable *)
Lemma pd_inv (J : d3 -> d3 -> fn3) H j X Y Z : (forall n l, pd (J n l) j X Y Z (H n l)) -> near (fun a b c => DetOf3Dmatrix (fun n l => J n l a b c) <> 0) X Y Z ->
  forall i k, exists G, pd (fun a b c => dXdx_from_dxdX (fun n l => J n l a b c) i k) j X Y Z G.
Proof.
  intros HJ N i k. assert (N0 := near_here _ _ _ _ N).
  set (num := fun a b c => adj (fun n l => J n l a b c) i k). set (den := fun a b c => DetOf3Dmatrix (fun n l => J n l a b c)).
  assert (Q : exists l l', pd (fun a b c => let m n l := J n l a b c in match i, k with
     | D1, D1 => - (m D2 D3 * m D3 D2) + m D2 D2 * m D3 D3 | D1, D2 => m D1 D3 * m D3 D2 - m D1 D2 * m D3 D3 | D1, D3 => - (m D1 D3 * m D2 D2) + m D1 D2 * m D2 D3
     | D2, D1 => m D2 D3 * m D3 D1 - m D2 D1 * m D3 D3 | D2, D2 => - (m D1 D3 * m D3 D1) + m D1 D1 * m D3 D3 | D2, D3 => m D1 D3 * m D2 D1 - m D1 D1 * m D2 D3
     | D3, D1 => - (m D2 D2 * m D3 D1) + m D2 D1 * m D3 D2 | D3, D2 => m D1 D2 * m D3 D1 - m D1 D1 * m D3 D2 | D3, D3 => - (m D1 D2 * m D2 D1) + m D1 D1 * m D2 D2 end) j X Y Z l /\ pd den j X Y Z l').
  { destruct i, k; eexists; eexists; (split; [|unfold den, DetOf3Dmatrix]);
    repeat first [apply pd_plus|apply pd_minus|apply pd_opp|apply pd_mult|apply HJ]. }
  destruct Q as (l & l' & Q & Q'). eexists. eapply pd_near; [|apply (pd_div _ _ j X Y Z _ _ Q Q' N0)].
  eapply near_imp; [|exact N]. intros a b c Hn. unfold dXdx_from_dxdX. destruct (Req_EM_T _ _) as [E|_]; [contradiction|]. unfold den. destruct i, k; reflexivity.
Qed.
