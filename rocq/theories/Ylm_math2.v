(** sin(theta) d/dtheta of the spherical harmonics. *)
From Coq Require Import Reals Lra Lia Factorial.
From Coquelicot Require Import Coquelicot.
From Verif Require Import Ylm_spec Ylm_math.
Open Scope R_scope.

Lemma rd_k_x2 l n x : (x ^ 2 - 1) * rd_k (S l) (S n) x = (2 * INR (S l) - INR n) * x * rd_k (S l) n x - kd l n x.
Proof.
  replace ((2 * INR (S l) - INR n) * x * rd_k (S l) n x) with (x * ((2 * INR (S l) - INR n) * rd_k (S l) n x)) by ring. rewrite rd_k_mid.
  rewrite (rd_k_SS l n) at 1. pose proof (rd_k_SS l n x). rewrite !H. ring.
Qed.
(** D_l = rd_k l (l+m):  (2l+1) (m x D_l + (x^2-1) D_l') = l (l+1-m) D_(l+1) - (l+1)(l+m) D_(l-1); the last term is missing for l = 0 *)
Definition Dlm1 (l m : nat) (x : R) : R := match l with O => 0 | S l' => rd_k l' (l' + m) x end.
Lemma rd_k_theta l m x : (m <= l)%nat -> (2 * INR l + 1) * (INR m * x * rd_k l (l + m) x + (x ^ 2 - 1) * rd_k l (S (l + m)) x) =
  INR l * (INR l + 1 - INR m) * rd_k (S l) (S l + m) x - (INR l + 1) * (INR l + INR m) * Dlm1 l m x.
Proof.
  intros H. destruct l as [|l].
  - replace m with 0%nat by lia. cbn [Nat.add Dlm1 INR]. rewrite rd_0_S. ring.
  - cbn [Dlm1]. replace (S l + m)%nat with (S (l + m)) by lia. replace (S (S l) + m)%nat with (S (S (l + m))) by lia.
    rewrite (rd_k_x2 l (S (l + m))). cbn [kd]. pose proof (rd_k_rec l (l + m) x) as E.
    assert (N : 2 * INR (S l) - INR (l + m) = INR (S l) + 1 - INR m) by (rewrite plus_INR, !S_INR; ring). rewrite N in E.
    assert (M : INR (S (l + m)) = INR (S l) + INR m) by (rewrite !S_INR, plus_INR; ring). rewrite M in *.
    replace (INR (S l) * (INR (S l) + 1 - INR m) * rd_k (S (S l)) (S (S (l + m))) x) with (INR (S l) * ((INR (S l) + 1 - INR m) * rd_k (S (S l)) (S (S (l + m))) x)) by ring.
    rewrite E. ring.
Qed.
(** the function of theta *)
Definition Fth (l m : nat) (t : R) : R := (-1) ^ m * sin t ^ m * rd_k l (l + m) (cos t).
Lemma Fth_derive l m t : exists d, is_derive (Fth l m) t d /\ sin t * d = (-1) ^ m * sin t ^ m * (INR m * cos t * rd_k l (l + m) (cos t) + (cos t ^ 2 - 1) * rd_k l (S (l + m)) (cos t)).
Proof.
  assert (D1 : is_derive (fun u => rd_k l (l + m) (cos u)) t (- sin t * rd_k l (S (l + m)) (cos t))).
  { apply (is_derive_comp (rd_k l (l + m)) cos t). - apply rd_k_derive. - auto_derive; auto. ring. }
  assert (D2 : is_derive (fun u => (-1) ^ m * sin u ^ m) t ((-1) ^ m * (INR m * cos t * sin t ^ (pred m)))).
  { apply (is_derive_scal (fun u => sin u ^ m)). apply (is_derive_pow sin m t (cos t)). auto_derive; auto. ring. }
  eexists. split.
  - apply (is_derive_mult (fun u => (-1) ^ m * sin u ^ m) (fun u => rd_k l (l + m) (cos u)) t _ _ D2 D1). intros; apply Rmult_comm.
  - change plus with Rplus. change mult with Rmult. assert (P : sin t * (INR m * sin t ^ pred m) = INR m * sin t ^ m). { destruct m; [cbn; ring|]. cbn [pred pow]. ring. }
    assert (S2 : cos t ^ 2 - 1 = - (sin t * sin t)). { pose proof (sin2_cos2 t). unfold Rsqr in *. simpl. lra. }
    rewrite S2.
    replace (sin t * ((-1) ^ m * (INR m * cos t * sin t ^ pred m) * rd_k l (l + m) (cos t) + (-1) ^ m * sin t ^ m * (- sin t * rd_k l (S (l + m)) (cos t))))
      with ((-1) ^ m * (cos t * (sin t * (INR m * sin t ^ pred m)) * rd_k l (l + m) (cos t) + sin t ^ m * (- (sin t * sin t) * rd_k l (S (l + m)) (cos t)))) by ring.
    rewrite P. ring.
Qed.
(** normalisation *)
Definition nrm (l m : nat) : R := INR (2 * l + 1) / (4 * PI) * (INR (fact (l - m)) / INR (fact (l + m))).
Definition ee (l m : nat) : R := (INR l * INR l - INR m * INR m) / ((2 * INR l + 1) * (2 * INR l - 1)).
Lemma nrm_pos l m : 0 < nrm l m.
Proof.
  unfold nrm. pose proof PI_RGT_0. assert (forall k, 0 < INR (fact k)) by (intros; apply lt_0_INR; apply lt_O_fact).
  apply Rmult_lt_0_compat; apply Rdiv_lt_0_compat; auto; [apply lt_0_INR; lia|lra].
Qed.
Lemma ee_nonneg l m : (m <= S l)%nat -> 0 <= ee (S l) m.
Proof.
  intros H. unfold ee. apply le_INR in H. pose proof (pos_INR m). assert (1 <= INR (S l)) by (rewrite S_INR; pose proof (pos_INR l); lra).
  apply Rmult_le_pos; [nra|]. left. apply Rinv_0_lt_compat. nra.
Qed.
Lemma nrm_up l m : (m <= l)%nat -> (INR l + 1 - INR m) / (2 * INR l + 1) * sqrt (nrm l m) = sqrt (ee (S l) m) * sqrt (nrm (S l) m).
Proof.
  intros H. pose proof (nrm_pos l m). pose proof (nrm_pos (S l) m). pose proof (ee_nonneg l m ltac:(lia)).
  assert (HL : INR m <= INR l) by (apply le_INR; auto). pose proof (pos_INR m). pose proof (pos_INR l).
  rewrite <- sqrt_mult by lra.
  rewrite <- (sqrt_Rsqr ((INR l + 1 - INR m) / (2 * INR l + 1))). 2:{ apply Rmult_le_pos; [lra|]. left. apply Rinv_0_lt_compat. lra. }
  rewrite <- sqrt_mult; [|apply Rle_0_sqr|lra]. f_equal. unfold Rsqr, nrm, ee.
  replace (S l - m)%nat with (S (l - m)) by lia. replace (S l + m)%nat with (S (l + m)) by lia.
  change (fact (S (l - m))) with (S (l - m) * fact (l - m))%nat. change (fact (S (l + m))) with (S (l + m) * fact (l + m))%nat.
  pose proof (fact_INR_neq (l - m)). pose proof (fact_INR_neq (l + m)). pose proof PI_neq0.
  rewrite !mult_INR, !plus_INR, !mult_INR, (S_INR (l - m)), (S_INR (l + m)), (S_INR l), minus_INR, plus_INR by lia. change (INR 2) with 2. change (INR 1) with 1.
  field. repeat split; auto; lra.
Qed.
Lemma nrm_down l m : (m < l)%nat -> (INR l + INR m) / (2 * INR l + 1) * sqrt (nrm l m) = sqrt (ee l m) * sqrt (nrm (l - 1) m).
Proof.
  intros H. destruct l as [|l]; [lia|]. replace (S l - 1)%nat with l by lia. pose proof (nrm_pos l m). pose proof (nrm_pos (S l) m). pose proof (ee_nonneg l m ltac:(lia)).
  assert (HL : INR m <= INR l) by (apply le_INR; lia). pose proof (pos_INR m). pose proof (pos_INR l).
  rewrite <- sqrt_mult by lra. rewrite S_INR.
  rewrite <- (sqrt_Rsqr ((INR l + 1 + INR m) / (2 * (INR l + 1) + 1))). 2:{ apply Rmult_le_pos; [lra|]. left. apply Rinv_0_lt_compat. lra. }
  rewrite <- sqrt_mult; [|apply Rle_0_sqr|lra]. f_equal. unfold Rsqr, nrm, ee.
  replace (S l - m)%nat with (S (l - m)) by lia. replace (S l + m)%nat with (S (l + m)) by lia.
  change (fact (S (l - m))) with (S (l - m) * fact (l - m))%nat. change (fact (S (l + m))) with (S (l + m) * fact (l + m))%nat.
  pose proof (fact_INR_neq (l - m)). pose proof (fact_INR_neq (l + m)). pose proof PI_neq0.
  rewrite !mult_INR, !plus_INR, !mult_INR, (S_INR (l - m)), (S_INR (l + m)), (S_INR l), minus_INR, plus_INR by lia. change (INR 2) with 2. change (INR 1) with 1.
  field. repeat split; auto; lra.
Qed.
(** T_l^m = sqrt(nrm) P_l^m(cos theta) for 0 <= theta <= PI;  sin T' = l e_(l+1) T_(l+1) - (l+1) e_l T_(l-1) *)
Definition Tlm (l m : nat) (t : R) : R := sqrt (nrm l m) * Fth l m t.
Lemma Tlm_derive l m t : (m <= l)%nat -> exists d, derivable_pt_lim (Tlm l m) t d /\
  sin t * d = INR l * sqrt (ee (S l) m) * Tlm (S l) m t - (INR l + 1) * sqrt (ee l m) * (if Nat.ltb m l then Tlm (l - 1) m t else 0).
Proof.
  intros H. destruct (Fth_derive l m t) as (d & D & E). exists (sqrt (nrm l m) * d). split.
  - apply is_derive_Reals. apply (is_derive_scal (Fth l m)). exact D.
  - replace (sin t * (sqrt (nrm l m) * d)) with (sqrt (nrm l m) * (sin t * d)) by ring. rewrite E.
    assert (P : 2 * INR l + 1 <> 0) by (pose proof (pos_INR l); lra).
    set (Q := INR m * cos t * rd_k l (l + m) (cos t) + (cos t ^ 2 - 1) * rd_k l (S (l + m)) (cos t)).
    assert (EQ : Q = (INR l * (INR l + 1 - INR m) * rd_k (S l) (S l + m) (cos t) - (INR l + 1) * (INR l + INR m) * Dlm1 l m (cos t)) / (2 * INR l + 1)).
    { rewrite <- rd_k_theta by auto. fold Q. field. auto. }
    rewrite EQ. unfold Tlm. 
    replace (INR l * sqrt (ee (S l) m) * (sqrt (nrm (S l) m) * Fth (S l) m t)) with (INR l * (sqrt (ee (S l) m) * sqrt (nrm (S l) m)) * Fth (S l) m t) by ring. rewrite <- nrm_up by auto.
    destruct (Nat.ltb_spec m l) as [L|L].
    + replace ((INR l + 1) * sqrt (ee l m) * (sqrt (nrm (l - 1) m) * Fth (l - 1) m t)) with ((INR l + 1) * (sqrt (ee l m) * sqrt (nrm (l - 1) m)) * Fth (l - 1) m t) by ring. rewrite <- nrm_down by auto.
      unfold Fth. destruct l as [|l]; [lia|]. cbn [Dlm1]. replace (S l - 1)%nat with l by lia. field. auto.
    + replace m with l in * by lia. assert (Z : Dlm1 l l (cos t) = 0). { destruct l as [|l]; [reflexivity|]. cbn [Dlm1]. apply rd_k_high. lia. }
      rewrite Z. unfold Fth. field. auto.
Qed.
