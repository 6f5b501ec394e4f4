(** Partial derivatives of products, sums, inverse matrices and Christoffel symbols. *)
From Verif Require Import Rutil Coord_model Coord_spec Adm_model Adm_spec Adm_proofs.
Local Open Scope R_scope.
(** ** rules *)
Lemma dl_ext (f g : R -> R) x l e : 0 < e -> (forall t, Rabs (t - x) < e -> f t = g t) -> derivable_pt_lim f x l -> derivable_pt_lim g x l.
Proof.
  intros He E D eps Hp. destruct (D eps Hp) as [d Hd]. assert (M : 0 < Rmin d e) by (apply Rmin_pos; [apply cond_pos|auto]). exists (mkposreal _ M). intros k Hk Lk. cbn in Lk. rewrite <- !E.
  - apply Hd; auto. eapply Rlt_le_trans; [exact Lk|apply Rmin_l].
  - rewrite Rminus_diag_eq by reflexivity. now rewrite Rabs_R0.
  - replace (x + k - x) with k by ring. eapply Rlt_le_trans; [exact Lk|apply Rmin_r].
Qed.
Lemma near0 e X Y Z : 0 < e -> near e X Y Z X Y Z.
Proof. intros H. unfold near. rewrite !Rminus_diag_eq by reflexivity. rewrite Rabs_R0. auto. Qed.
Lemma pd_ext (f g : fn3) k X Y Z l e : 0 < e -> (forall x y z, near e X Y Z x y z -> f x y z = g x y z) -> pd f k X Y Z l -> pd g k X Y Z l.
Proof.
  intros He E. assert (Z0 : forall u, Rabs (u - u) < e) by (intros u; rewrite Rminus_diag_eq by reflexivity; now rewrite Rabs_R0).
  destruct k; cbn; intros D; (eapply dl_ext; [exact He| |exact D]); intros t Ht; cbv beta; apply E; repeat split; auto.
Qed.
Lemma pd_unique f k X Y Z l m : pd f k X Y Z l -> pd f k X Y Z m -> l = m.
Proof. destruct k; cbn; apply uniqueness_limite. Qed.
Lemma pd_const c k X Y Z : pd (fun _ _ _ => c) k X Y Z 0.
Proof. destruct k; cbn; apply derivable_pt_lim_const. Qed.
Lemma pd_plus f g k X Y Z l m : pd f k X Y Z l -> pd g k X Y Z m -> pd (fun x y z => f x y z + g x y z) k X Y Z (l + m).
Proof. destruct k; cbn; intros A B; apply (derivable_pt_lim_plus _ _ _ _ _ A B). Qed.
Lemma pd_minus f g k X Y Z l m : pd f k X Y Z l -> pd g k X Y Z m -> pd (fun x y z => f x y z - g x y z) k X Y Z (l - m).
Proof. destruct k; cbn; intros A B; apply (derivable_pt_lim_minus _ _ _ _ _ A B). Qed.
Lemma pd_mult f g k X Y Z l m : pd f k X Y Z l -> pd g k X Y Z m -> pd (fun x y z => f x y z * g x y z) k X Y Z (l * g X Y Z + f X Y Z * m).
Proof. destruct k; cbn; intros A B; apply (derivable_pt_lim_mult _ _ _ _ _ A B). Qed.
Lemma pd_scal c f k X Y Z l : pd f k X Y Z l -> pd (fun x y z => c * f x y z) k X Y Z (c * l).
Proof. destruct k; cbn; intros A; apply (derivable_pt_lim_scal _ c _ _ A). Qed.
Lemma pd_inv f k X Y Z l : f X Y Z <> 0 -> pd f k X Y Z l -> pd (fun x y z => / f x y z) k X Y Z (- l / (f X Y Z * f X Y Z)).
Proof.
  intros N D. assert (G : forall (f : R -> R) x l, f x <> 0 -> derivable_pt_lim f x l -> derivable_pt_lim (fun t => / f t) x (- l / (f x * f x))).
  { clear. intros f x l N D. pose proof (derivable_pt_lim_div (fun _ => 1) f x 0 l (derivable_pt_lim_const 1 x) D N) as Q. apply (dl_ext (fun t => 1 / f t) _ x _ 1); [lra|intros; unfold Rdiv; ring|]. replace (- l / (f x * f x)) with ((0 * f x - l * 1) / Rsqr (f x)) by (unfold Rsqr; field; auto). exact Q. }
  destruct k; cbn in *; apply (G (fun t => f _ _ _)); auto.
Qed.
Lemma pd_val f k X Y Z l m : l = m -> pd f k X Y Z l -> pd f k X Y Z m.
Proof. now intros <-. Qed.
Lemma pd_S3 (f : d3 -> fn3) k X Y Z (l : d3 -> R) : (forall i, pd (f i) k X Y Z (l i)) -> pd (fun x y z => S3 (fun i => f i x y z)) k X Y Z (S3 l).
Proof. intros H. unfold S3. apply (pd_plus (fun x y z => f D1 x y z + f D2 x y z)); [apply pd_plus|]; auto. Qed.
Lemma pd_near f k X Y Z l : pd f k X Y Z l <-> pd (fun x y z => f x y z) k X Y Z l.
Proof. destruct k; reflexivity. Qed.
(** ** the inverse matrix *)
Definition det3 (h : d3 -> d3 -> R) : R := h D1 D1 * (h D2 D2 * h D3 D3 - h D2 D3 * h D3 D2) - h D1 D2 * (h D2 D1 * h D3 D3 - h D2 D3 * h D3 D1) + h D1 D3 * (h D2 D1 * h D3 D2 - h D2 D2 * h D3 D1).
Definition suc (i : d3) : d3 := match i with D1 => D2 | D2 => D3 | D3 => D1 end.
(** adj h i j is the cofactor of h j i *)
Definition adj (h : d3 -> d3 -> R) (i j : d3) : R := h (suc j) (suc i) * h (suc (suc j)) (suc (suc i)) - h (suc j) (suc (suc i)) * h (suc (suc j)) (suc i).
Lemma inv_det h hi : inverse h hi -> det3 hi * det3 h = 1.
Proof.
  intros E. pose proof (fun i j => E i j) as Q. set (P := fun i j => S3 (fun k => hi i k * h k j)).
  assert (M : det3 hi * det3 h = det3 P) by (unfold det3, P, S3; ring). rewrite M. unfold det3. change (P D1 D1) with (S3 (fun k => hi D1 k * h k D1)). unfold P. rewrite !E. cbn [delta]. ring.
Qed.
Lemma inv_adj h hi i j : inverse h hi -> hi i j = adj h i j * / det3 h.
Proof.
  intros E. pose proof (inv_det h hi E) as D. assert (N : det3 h <> 0) by (intros N; rewrite N in D; lra).
  assert (Q : hi i j * det3 h = S3 (fun k => S3 (fun l => hi i l * h l k) * adj h k j)) by (unfold det3, adj, S3; destruct j; cbn [suc]; ring).
  assert (Q2 : hi i j * det3 h = adj h i j) by (rewrite Q; unfold S3 at 1; rewrite !E; destruct i; cbn [delta]; ring). rewrite <- Q2. field. auto.
Qed.
Lemma inv_sym h hi i j : (forall i j, h i j = h j i) -> inverse h hi -> hi i j = hi j i.
Proof.
  intros S E. rewrite !(inv_adj h hi _ _ E). f_equal. unfold adj. destruct i, j; cbn [suc]; rewrite ?(S D2 D1), ?(S D3 D1), ?(S D3 D2); ring.
Qed.
Lemma inv_unique h hi hi' i j : inverse h hi -> inverse h hi' -> hi i j = hi' i j.
Proof. intros A B. now rewrite (inv_adj h hi i j A), (inv_adj h hi' i j B). Qed.
Lemma inv_right h hi i j : (forall i j, h i j = h j i) -> inverse h hi -> S3 (fun k => h i k * hi k j) = delta i j.
Proof.
  intros S E. assert (D : delta i j = delta j i) by (destruct i, j; reflexivity). rewrite D, <- (E j i). unfold S3. rewrite !(inv_sym h hi _ j S E), !(S i). ring.
Qed.
(** derivative of the inverse *)
Lemma pd_hi (h hi : d3 -> d3 -> fn3) k X Y Z (dh : d3 -> d3 -> R) e : 0 < e -> (forall x y z, near e X Y Z x y z -> inverse (fun i j => h i j x y z) (fun i j => hi i j x y z) /\ forall i j, h i j x y z = h j i x y z) ->
  (forall i j, pd (h i j) k X Y Z (dh i j)) -> forall i j, pd (hi i j) k X Y Z (- SS (fun c d => hi i c X Y Z * hi j d X Y Z * dh c d)).
Proof.
  intros He I D. pose proof (near0 e X Y Z He) as N0. destruct (I X Y Z N0) as [I0 S0].
  assert (EX : forall i j, exists l, pd (hi i j) k X Y Z l).
  { intros i j. pose proof (inv_det _ _ I0) as ID. assert (NZ : det3 (fun i j => h i j X Y Z) <> 0) by (intros N; rewrite N in ID; lra).
    assert (G : exists l, pd (fun x y z => adj (fun i j => h i j x y z) i j * / det3 (fun i j => h i j x y z)) k X Y Z l).
    { eexists. apply pd_mult.
      - unfold adj. apply pd_minus; apply pd_mult; apply D.
      - apply pd_inv; [exact NZ|]. unfold det3. repeat first [apply pd_minus | apply pd_plus | apply pd_mult | apply D]. }
    destruct G as [l G]. exists l. eapply pd_ext; [exact He| |exact G]. intros x y z N. cbv beta. symmetry. apply (inv_adj (fun i j => h i j x y z) (fun i j => hi i j x y z)). apply I. auto. }
  assert (CH : exists dhi : d3 -> d3 -> R, forall i j, pd (hi i j) k X Y Z (dhi i j)).
  { destruct (EX D1 D1) as [a11 ?], (EX D1 D2) as [a12 ?], (EX D1 D3) as [a13 ?], (EX D2 D1) as [a21 ?], (EX D2 D2) as [a22 ?], (EX D2 D3) as [a23 ?], (EX D3 D1) as [a31 ?], (EX D3 D2) as [a32 ?], (EX D3 D3) as [a33 ?].
    exists (fun i j => match i, j with D1, D1 => a11 | D1, D2 => a12 | D1, D3 => a13 | D2, D1 => a21 | D2, D2 => a22 | D2, D3 => a23 | D3, D1 => a31 | D3, D2 => a32 | D3, D3 => a33 end). intros [] []; auto. }
  destruct CH as [dhi Hd].
  assert (Z0 : forall i j, S3 (fun m => dhi i m * h m j X Y Z + hi i m X Y Z * dh m j) = 0).
  { intros i j. assert (P : pd (fun x y z => S3 (fun m => hi i m x y z * h m j x y z)) k X Y Z (S3 (fun m => dhi i m * h m j X Y Z + hi i m X Y Z * dh m j))) by (apply (pd_S3 (fun m x y z => hi i m x y z * h m j x y z)); intros m; apply pd_mult; auto).
    assert (P0 : pd (fun x y z => S3 (fun m => hi i m x y z * h m j x y z)) k X Y Z 0). { eapply pd_ext; [exact He| |apply (pd_const (delta i j))]. intros x y z N. symmetry. apply (proj1 (I x y z N) i j). }
    eapply pd_unique; eauto. }
  intros i j. apply (pd_val _ _ _ _ _ (dhi i j)); [|apply Hd].
  (* dhi_ij = sum_m (sum_n dhi_in h_nm) hi_mj *)
  assert (A : S3 (fun m => S3 (fun n => dhi i n * h n m X Y Z) * hi m j X Y Z) = dhi i j).
  { transitivity (S3 (fun n => dhi i n * S3 (fun m => h n m X Y Z * hi m j X Y Z))); [unfold S3; ring|]. unfold S3 at 1. rewrite !(inv_right (fun i j => h i j X Y Z) (fun i j => hi i j X Y Z)); auto. destruct j; cbn [delta]; ring. }
  rewrite <- A. transitivity (- S3 (fun m => S3 (fun n => hi i n X Y Z * dh n m) * hi m j X Y Z)).
  - assert (B : forall m, S3 (fun n => dhi i n * h n m X Y Z) = - S3 (fun n => hi i n X Y Z * dh n m)) by (intros m; specialize (Z0 i m); unfold S3 in *; lra). unfold S3 at 1 3. rewrite !B. ring.
  - unfold SS, S3. assert (SY : forall m, hi m j X Y Z = hi j m X Y Z) by (intros m; apply (inv_sym (fun i j => h i j X Y Z) (fun i j => hi i j X Y Z)); auto). rewrite !SY. ring.
Qed.
