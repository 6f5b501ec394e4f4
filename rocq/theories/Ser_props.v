(** C80: coefficients of the derivatives of a sum of spherical harmonics. *)
From Coq Require Import Reals Lra Lia ZArith List Factorial.
From Verif Require Import Base Loops Sparse_model Sparse_proofs Ylm_model Ylm_spec Ylm_math Ylm_math2 Ylm_proofs Ser_proofs.
Open Scope R_scope.

Lemma dsum (f : nat -> R -> R) (d : nat -> R) x n : (forall i, (i <= n)%nat -> derivable_pt_lim (f i) x (d i)) -> derivable_pt_lim (fun t => sum_f_R0 (fun i => f i t) n) x (sum_f_R0 d n).
Proof.
  induction n as [|n IH]; intros H; [apply (H 0%nat); lia|]. cbn [sum_f_R0]. apply (derivable_pt_lim_plus (fun t => sum_f_R0 (fun i => f i t) n) (f (S n))); [apply IH; intros; apply H; lia|apply H; lia].
Qed.
Lemma dlim_ext (f g : R -> R) x l : (forall t, f t = g t) -> derivable_pt_lim f x l -> derivable_pt_lim g x l.
Proof. intros E H eps He. destruct (H eps He) as (d & Hd). exists d. intros h H0 H1. rewrite <- !E. now apply Hd. Qed.
Lemma dlim_loc (f g : R -> R) x d l : 0 < d -> (forall t, Rabs (t - x) < d -> f t = g t) -> derivable_pt_lim f x l -> derivable_pt_lim g x l.
Proof.
  intros D E H eps He. destruct (H eps He) as (d1 & Hd). assert (P : 0 < Rmin d1 d) by (apply Rmin_glb_lt; [apply cond_pos|auto]). exists (mkposreal _ P). intros h H0 H1. cbn in H1.
  rewrite <- !E. - apply Hd; auto. apply Rlt_le_trans with (1 := H1). apply Rmin_l. - replace (x - x) with 0 by ring. rewrite Rabs_R0. auto. - replace (x + h - x) with h by ring. apply Rlt_le_trans with (1 := H1). apply Rmin_r.
Qed.

(** C80: the array returned by SphHarm_dphi_forRealFunc holds the coefficients of the phi-derivative *)
Theorem C80_dphi c cd L : (2 * entry L L + 1 < List.length c)%nat -> (2 * entry L L + 1 < List.length cd)%nat ->
  exists cd', SphHarm_dphi_forRealFunc c cd L = Ok cd' /\ List.length cd' = List.length cd /\
    forall th ph f v, (forall t, is_series c L th t (f t)) -> is_series cd' L th ph v -> derivable_pt_lim f ph v.
Proof.
  intros LC LD. rewrite entry_ind in LC, LD. assert (TS : tabsize L = S (ind_lm L L)) by (rewrite tabsize_ind, ind_S, (ind_m L L); lia).
  destruct (dphi_ok c cd L) as (cd' & E & L' & H); [lia|lia|]. exists cd'. split; auto. split; auto. intros th ph f v Hf Hv. apply series_ok in Hv. subst v.
  apply (dlim_ext (fun t => series c L th t)). { intros t. symmetry. apply series_ok. apply Hf. }
  unfold series. apply (dsum (fun l t => sum_f_R0 (term c th t l) l)). intros l Hl. apply (dsum (fun m t => term c th t l m)). intros m Hm. unfold term. destruct (H l m) as [-> ->]; [lia|].
  unfold Yr, Yi. set (a := nth _ c 0). set (b := nth _ c 0). set (p := PL l m (cos th) * sqrt (fac_of l m)).
  replace (wgt m * (- INR m * b * (p * cos (INR m * ph)) - INR m * a * (p * sin (INR m * ph)))) with (wgt m * p * (a * (- sin (INR m * ph) * INR m) - b * (cos (INR m * ph) * INR m))) by ring.
  apply (dlim_ext (fun t => wgt m * p * (a * cos (INR m * t) - b * sin (INR m * t)))). { intros. ring. }
  assert (DL : derivable_pt_lim (fun t => INR m * t) ph (INR m)). { pose proof (derivable_pt_lim_scal id (INR m) ph 1 (derivable_pt_lim_id ph)) as Q. rewrite Rmult_1_r in Q. exact Q. }
  apply (derivable_pt_lim_scal (fun t => a * cos (INR m * t) - b * sin (INR m * t))).
  apply (derivable_pt_lim_minus (fun t => a * cos (INR m * t)) (fun t => b * sin (INR m * t))).
  - apply (derivable_pt_lim_scal (fun t => cos (INR m * t))). apply (derivable_pt_lim_comp (fun t => INR m * t) cos); [exact DL|apply derivable_pt_lim_cos].
  - apply (derivable_pt_lim_scal (fun t => sin (INR m * t))). apply (derivable_pt_lim_comp (fun t => INR m * t) sin); [exact DL|apply derivable_pt_lim_sin].
Qed.
Print Assumptions C80_dphi.

(** ** theta *)
Lemma Yr_T l m th ph : 0 < th < PI -> Yr l m th ph = Tlm l m th * cos (INR m * ph) /\ Yi l m th ph = Tlm l m th * sin (INR m * ph).
Proof.
  intros H. assert (S : sqrt (1 - cos th ^ 2) = sin th). { replace (1 - cos th ^ 2) with (Rsqr (sin th)). 2:{ rewrite sin2. unfold Rsqr. ring. } apply sqrt_Rsqr. left. now apply sin_gt_0. }
  unfold Yr, Yi, Tlm, Fth, PL. rewrite S. change (nrm l m) with (fac_of l m). split; ring.
Qed.
(** coefficient (l,m) at a fixed phi *)
Definition cph (c : list R) (ph : R) (l m : nat) : R := cf c 0 l m * cos (INR m * ph) - cf c 1 l m * sin (INR m * ph).
Lemma term_T c th ph l m : 0 < th < PI -> term c th ph l m = wgt m * (cph c ph l m * Tlm l m th).
Proof. intros H. unfold term, cph, cf. destruct (Yr_T l m th ph H) as [-> ->]. rewrite Nat.add_0_r. ring. Qed.
(** rearranging the sum *)
Lemma shift_sum (w : nat -> R) (e c T : nat -> nat -> R) (e0 : e 0%nat 0%nat = 0) L :
  sum_f_R0 (fun l => sum_f_R0 (fun m => w m * (c l m * (INR l * e (S l) m * T (S l) m - (INR l + 1) * e l m * (if Nat.ltb m l then T (l - 1)%nat m else 0)))) l) L =
  sum_f_R0 (fun l => sum_f_R0 (fun m => w m * (((INR l - 1) * e l m * (if Nat.ltb m l then c (l - 1)%nat m else 0) - (INR l + 2) * e (S l) m * c (S l) m) * T l m)) l) L +
  sum_f_R0 (fun m => w m * (e (S L) m * (INR L * c L m * T (S L) m + (INR L + 2) * c (S L) m * T L m))) L.
Proof.
  induction L as [|L IH].
  - cbn [sum_f_R0 Nat.ltb Nat.leb]. rewrite e0. cbn [INR]. ring.
  - rewrite (tech5 _ L), IH. clear IH. rewrite (tech5 (fun l => sum_f_R0 (fun m => w m * (((INR l - 1) * e l m * (if Nat.ltb m l then c (l - 1)%nat m else 0) - (INR l + 2) * e (S l) m * c (S l) m) * T l m)) l) L).
    set (V := sum_f_R0 _ L). rewrite !Rplus_assoc. apply Rplus_eq_compat_l. rewrite !(tech5 _ L). replace (Nat.ltb (S L) (S L)) with false by (symmetry; apply Nat.ltb_irrefl). 
    match goal with |- ?a + (?b + ?p) = ?cc + ?q + (?d + ?r) => assert (G : a + b = cc + d); [|enough (p = q + r) by lra] end.
    + rewrite <- !plus_sum. apply sum_eq. intros m Hm. destruct (Nat.ltb_spec m (S L)); [|lia]. replace (S L - 1)%nat with L by lia. rewrite !S_INR. ring.
    + rewrite !S_INR. ring.
Qed.
Definition missing (c : list R) (L : nat) (th ph : R) : R := sum_f_R0 (fun m => wgt m * (sqrt (ee (S L) m) * (INR L * cph c ph L m * Tlm (S L) m th + (INR L + 2) * cph c ph (S L) m * Tlm L m th))) L.
Lemma dtheta_error c cd cd' L : (2 * ind_lm (S L) L + 1 < List.length c)%nat -> (2 * tabsize L <= List.length cd)%nat -> SphHarm_sin_theta_dtheta_forRealFunc c cd L = Ok cd' ->
  forall th ph, 0 < th < PI -> exists d, derivable_pt_lim (fun t => series c L t ph) th d /\ sin th * d = series cd' L th ph + missing c L th ph.
Proof.
  intros LC LD E th ph Ht. destruct (dtheta_ok c cd L LC LD) as (cd2 & E2 & _ & H). rewrite E in E2. injection E2 as <-.
  assert (DT : exists D, forall l m, (m <= l)%nat -> derivable_pt_lim (Tlm l m) th (D l m) /\
     sin th * D l m = INR l * sqrt (ee (S l) m) * Tlm (S l) m th - (INR l + 1) * sqrt (ee l m) * (if Nat.ltb m l then Tlm (l - 1) m th else 0)).
  { exists (fun l m => (INR l * sqrt (ee (S l) m) * Tlm (S l) m th - (INR l + 1) * sqrt (ee l m) * (if Nat.ltb m l then Tlm (l - 1) m th else 0)) / sin th).
    intros l m Hm. pose proof (sin_gt_0 th (proj1 Ht) (proj2 Ht)). destruct (Tlm_derive l m th Hm) as (d & A & B). rewrite <- B. split; [|field; lra]. replace (sin th * d / sin th) with d by (field; lra). exact A. }
  destruct DT as (D & HD).
  exists (sum_f_R0 (fun l => sum_f_R0 (fun m => wgt m * (cph c ph l m * D l m)) l) L). split.
  - pose proof (Rmin_glb_lt th (PI - th) 0 ltac:(lra) ltac:(lra)) as P.
    apply (dlim_loc (fun t => sum_f_R0 (fun l => sum_f_R0 (fun m => wgt m * (cph c ph l m * Tlm l m t)) l) L) _ th _ _ P).
    { intros t Htt. unfold series. apply sum_eq. intros l _. apply sum_eq. intros m _. symmetry. apply term_T. pose proof (Rmin_l th (PI - th)). pose proof (Rmin_r th (PI - th)). apply Rabs_def2 in Htt. lra. }
    apply (dsum (fun l t => sum_f_R0 (fun m => wgt m * (cph c ph l m * Tlm l m t)) l)). intros l Hl. apply (dsum (fun m t => wgt m * (cph c ph l m * Tlm l m t))). intros m Hm.
    apply (derivable_pt_lim_scal (fun t => cph c ph l m * Tlm l m t)). apply (derivable_pt_lim_scal (Tlm l m)). apply HD. lia.
  - rewrite scal_sum. rewrite (sum_eq _ (fun l => sum_f_R0 (fun m => wgt m * (cph c ph l m * (INR l * sqrt (ee (S l) m) * Tlm (S l) m th - (INR l + 1) * sqrt (ee l m) * (if Nat.ltb m l then Tlm (l - 1) m th else 0)))) l) L).
    2:{ intros l Hl. rewrite Rmult_comm, scal_sum. apply sum_eq. intros m Hm. destruct (HD l m) as [_ Q]; [lia|]. rewrite <- Q. ring. }
    rewrite (shift_sum wgt (fun l m => sqrt (ee l m)) (cph c ph) (fun l m => Tlm l m th) (ee_diag 0) L). unfold missing. f_equal. unfold series. apply sum_eq. intros l Hl. apply sum_eq. intros m Hm. rewrite term_T by auto. f_equal. f_equal.
    unfold cph at 3. unfold cf at 1 2. destruct (H l m) as [H1 H2]; [lia|]. rewrite Nat.add_0_r, H1, H2. unfold dth, cph. destruct (Nat.ltb m l); ring.
Qed.

(** C80, full claim: for 0 < theta < PI the array returned by SphHarm_sin_theta_dtheta_forRealFunc holds the coefficients of sin(theta) d/dtheta of the function.  It fails: the product has harmonics of degree L+1, which are dropped. *)
Definition C80_claim (c cd : list R) (L : nat) : Prop :=
  exists cd', SphHarm_sin_theta_dtheta_forRealFunc c cd L = Ok cd' /\
    forall th ph f v, 0 < th < PI -> (forall t, is_series c L t ph (f t)) -> is_series cd' L th ph v -> exists d, derivable_pt_lim f th d /\ sin th * d = v.
Lemma dtheta_exact c cd L : (2 * ind_lm (S L) L + 1 < List.length c)%nat -> (2 * tabsize L <= List.length cd)%nat ->
  (forall th ph, 0 < th < PI -> missing c L th ph = 0) -> C80_claim c cd L.
Proof.
  intros LC LD Z. destruct (dtheta_ok c cd L LC LD) as (cd' & E & _ & _). exists cd'. split; auto. intros th ph f v Ht Hf Hv. apply series_ok in Hv. subst v.
  destruct (dtheta_error c cd cd' L LC LD E th ph Ht) as (d & D & Q). exists d. split. { apply (dlim_ext (fun t => series c L t ph)); auto. intros t. symmetry. apply series_ok. apply Hf. } rewrite Q, Z by auto. ring.
Qed.
(** it holds if the coefficients of degree L, and the L+1 pairs the code reads beyond them, vanish *)
Theorem C80_dtheta_partial c cd L : (2 * entry (S L) L + 1 < List.length c)%nat -> (2 * entry L L + 1 < List.length cd)%nat ->
  (forall m, (m <= L)%nat -> nth (2 * entry L m) c 0 = 0 /\ nth (2 * entry L m + 1) c 0 = 0 /\ nth (2 * entry (S L) m) c 0 = 0 /\ nth (2 * entry (S L) m + 1) c 0 = 0) ->
  C80_claim c cd L.
Proof.
  intros LC LD H. rewrite entry_ind in LC, LD. apply dtheta_exact; auto. { rewrite tabsize_ind, ind_S. rewrite (ind_m L L) in LD. lia. }
  intros th ph _. unfold missing. rewrite (sum_eq _ (fun _ => 0)). { rewrite sum_cte. ring. }
  intros m Hm. destruct (H m Hm) as (H1 & H2 & H3 & H4). rewrite !entry_ind in *. unfold cph, cf. rewrite !Nat.add_0_r, H1, H2, H3, H4. ring.
Qed.
Print Assumptions C80_dtheta_partial.
(** the function Y_1^0 with lmax = 1: sin(theta) dY_1^0/dtheta is not a sum of harmonics of degree at most 1 *)
Definition c_ex : list R := [0; 0; 1; 0; 0; 0; 0; 0; 0; 0; 0; 0].
Theorem C80_dtheta_refuted : exists c cd L, (2 * entry (S L) L + 1 < List.length c)%nat /\ (2 * entry L L + 1 < List.length cd)%nat /\ ~ C80_claim c cd L.
Proof.
  exists c_ex, (repeat 0 6), 1%nat. split; [cbn; lia|]. split; [cbn; lia|]. intros (cd' & E & H).
  assert (Ht : 0 < PI / 2 < PI) by (pose proof PI_RGT_0; lra).
  assert (LC : (2 * ind_lm 2 1 + 1 < List.length c_ex)%nat) by (cbv; lia). assert (LD : (2 * tabsize 1 <= List.length (repeat 0%R 6))%nat) by (cbv; lia).
  destruct (dtheta_error c_ex (repeat 0 6) cd' 1 LC LD E (PI / 2) 0 Ht) as (d & D & Q).
  destruct (H (PI / 2) 0 (fun t => series c_ex 1 t 0) (series cd' 1 (PI / 2) 0) Ht) as (d' & D' & Q'); [intros; now apply series_ok|now apply series_ok|].
  assert (d = d') by (apply (uniqueness_limite _ _ _ _ D D')). subst d'. rewrite Q' in Q.
  assert (M : missing c_ex 1 (PI / 2) 0 = sqrt (ee 2 0) * (sqrt (nrm 2 0) * (- (1 / 2)))).
  { unfold missing. cbn [sum_f_R0]. unfold wgt. cbn [Nat.eqb]. unfold cph, cf. cbn [INR]. rewrite Rmult_0_l, cos_0, sin_0. cbn [ind_lm Nat.mul Nat.add Nat.div Nat.divmod fst snd].
    change (nth (2 * ind_lm 1 0 + 0) c_ex 0) with 1. change (nth (2 * ind_lm 1 0 + 1) c_ex 0) with 0. change (nth (2 * ind_lm 2 0 + 0) c_ex 0) with 0. change (nth (2 * ind_lm 2 0 + 1) c_ex 0) with 0.
    change (nth (2 * ind_lm 1 1 + 0) c_ex 0) with 0. change (nth (2 * ind_lm 1 1 + 1) c_ex 0) with 0. change (nth (2 * ind_lm 2 1 + 0) c_ex 0) with 0. change (nth (2 * ind_lm 2 1 + 1) c_ex 0) with 0.
    unfold Tlm at 1. unfold Fth. cbn [pow Nat.add]. rewrite cos_PI2. cbn [rd_k]. unfold rodrigues. cbn [pow fact Nat.mul Nat.add INR]. unfold c_ex; cbn [nth]. field. }
  assert (0 < sqrt (ee 2 0)). { apply sqrt_lt_R0. unfold ee. cbn [INR]. lra. }
  assert (0 < sqrt (nrm 2 0)) by (apply sqrt_lt_R0; apply nrm_pos).
  assert (0 < sqrt (ee 2 0) * sqrt (nrm 2 0)) by (apply Rmult_lt_0_compat; auto). rewrite M in Q. lra.
Qed.
Print Assumptions C80_dtheta_refuted.
(** a function that meets the hypotheses of C80_dtheta_partial: Y_1^0 with lmax = 2 *)
Example C80_ex : C80_claim (c_ex ++ repeat 0 8) (repeat 0 12) 2.
Proof.
  apply C80_dtheta_partial; [cbn; lia|cbn; lia|]. intros m Hm. destruct m as [|[|[|m]]]; [cbn; auto..|lia].
Qed.
