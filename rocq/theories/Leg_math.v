(** The normalised associated Legendre functions by their three-term recurrence: they are orthonormal.  A quadrature rule on equidistant
    angles.  No code is modelled here. *)
From Verif Require Import Rutil Rsum Trig Integ_props Swsh_spec Swsh_proofs.
Local Open Scope R_scope.

Definition eps (m l : nat) : R := sqrt ((INR l * INR l - INR m * INR m) / (4 * INR l * INR l - 1)).
Lemma eps_m m : eps m m = 0. Proof. unfold eps. replace (INR m * INR m - INR m * INR m) with 0 by ring. unfold Rdiv. rewrite Rmult_0_l. apply sqrt_0. Qed.
Lemma eps_sq m l : (m <= l)%nat -> (4 * INR l * INR l - 1) * (eps m l * eps m l) = INR l * INR l - INR m * INR m.
Proof.
  intros H. apply le_INR in H. assert (P := pos_INR m). destruct (Nat.eq_dec l 0) as [->|N].
  - change (INR 0) with 0 in *. assert (INR m = 0) by lra. unfold eps. change (INR 0) with 0. rewrite H0. replace ((0 * 0 - 0 * 0) / (4 * 0 * 0 - 1)) with 0 by (field; lra). rewrite sqrt_0. ring.
  - assert (1 <= INR l) by (apply (le_INR 1); lia). assert (0 < 4 * INR l * INR l - 1) by nra. unfold eps. rewrite sqrt_sqrt. { field. lra. } unfold Rdiv. apply Rmult_le_pos; [nra|]. left. now apply Rinv_0_lt_compat.
Qed.
Lemma eps_pos m l : (m < l)%nat -> 0 < eps m l.
Proof.
  intros H. assert (1 <= INR l) by (apply (le_INR 1); lia). apply lt_INR in H. assert (P := pos_INR m). unfold eps. apply sqrt_lt_R0. apply Rdiv_lt_0_compat; nra.
Qed.
Lemma eps_step m l : (m <= l)%nat -> (2 * INR l + 3) * (eps m (S l) * eps m (S l)) - (2 * INR l - 1) * (eps m l * eps m l) = 1.
Proof.
  intros H. assert (A := eps_sq m l H). assert (B := eps_sq m (S l) ltac:(lia)). rewrite S_INR in B. assert (P := pos_INR l).
  set (x := eps m l * eps m l) in *. set (y := eps m (S l) * eps m (S l)) in *. set (L := INR l) in *.
  apply (Rmult_eq_reg_l (2 * L + 1)); [|lra].
  replace ((2 * L + 1) * ((2 * L + 3) * y - (2 * L - 1) * x)) with ((4 * (L + 1) * (L + 1) - 1) * y - (4 * L * L - 1) * x) by ring. rewrite A, B. ring.
Qed.

Section Leg.
  Variables (m : nat) (C : R).
  (** (P_{m+i-1}, P_{m+i}) and their derivatives *)
  Fixpoint lp (i : nat) (th : R) : R * R := match i with
    | O => (0, C * sin th ^ m)
    | S k => let p := lp k th in (snd p, (cos th * snd p - eps m (m + k) * fst p) / eps m (S (m + k))) end.
  Fixpoint dp (i : nat) (th : R) : R * R := match i with
    | O => (0, C * (INR m * sin th ^ pred m * cos th))
    | S k => let p := lp k th in let d := dp k th in (snd d, (- sin th * snd p + cos th * snd d - eps m (m + k) * fst d) / eps m (S (m + k))) end.
  Definition leg (i : nat) (th : R) : R := snd (lp i th).
  Definition legm (i : nat) (th : R) : R := fst (lp i th).
  Definition dleg (i : nat) (th : R) : R := snd (dp i th).
  Definition dlegm (i : nat) (th : R) : R := fst (dp i th).
  Lemma epsS k : eps m (S (m + k)) <> 0. Proof. apply Rgt_not_eq, eps_pos. lia. Qed.
  Lemma leg_rec i th : eps m (S (m + i)) * leg (S i) th = cos th * leg i th - eps m (m + i) * legm i th.
  Proof. unfold leg, legm. cbn [lp snd fst]. field. apply epsS. Qed.
  Lemma leg_S i th : legm (S i) th = leg i th. Proof. reflexivity. Qed.
  Lemma dleg_rec i th : eps m (S (m + i)) * dleg (S i) th = - sin th * leg i th + cos th * dleg i th - eps m (m + i) * dlegm i th.
  Proof. unfold leg, legm, dleg, dlegm. cbn [lp dp snd fst]. field. apply epsS. Qed.
  Lemma leg_der i : forall th, derivable_pt_lim (leg i) th (dleg i th) /\ derivable_pt_lim (legm i) th (dlegm i th).
  Proof.
    induction i as [|i IH]; intros th.
    - split; [|apply derivable_pt_lim_const]. unfold leg, dleg. cbn [lp dp snd]. apply (derivable_pt_lim_scal (fun t => sin t ^ m)). apply (pow_deriv sin), derivable_pt_lim_sin.
    - destruct (IH th) as [A B]. split; [|exact A]. unfold leg at 1, dleg at 1. cbn [lp dp snd].
      apply derivable_pt_lim_ext with (f := fun t => / eps m (S (m + i)) * (cos t * leg i t - eps m (m + i) * legm i t)). { intros t. unfold leg, legm. unfold Rdiv. ring. }
      replace ((- sin th * snd (lp i th) + cos th * snd (dp i th) - eps m (m + i) * fst (dp i th)) / eps m (S (m + i))) with (/ eps m (S (m + i)) * ((- sin th * leg i th + cos th * dleg i th) - eps m (m + i) * dlegm i th)) by (unfold leg, dleg, dlegm; unfold Rdiv; ring).
      apply (derivable_pt_lim_scal (fun t => cos t * leg i t - eps m (m + i) * legm i t)). apply (derivable_pt_lim_minus (fun t => cos t * leg i t) (fun t => eps m (m + i) * legm i t)).
      + apply (derivable_pt_lim_mult cos (leg i)); [apply derivable_pt_lim_cos|exact A]. + apply (derivable_pt_lim_scal (legm i)), B.
  Qed.
  Lemma cont_of f t v : derivable_pt_lim f t v -> continuity_pt f t. Proof. intros H. apply derivable_continuous_pt. now exists v. Qed.
  Lemma leg_cont i t : continuity_pt (leg i) t. Proof. apply (cont_of _ _ _ (proj1 (leg_der i t))). Qed.
  Lemma legm_cont i t : continuity_pt (legm i) t. Proof. apply (cont_of _ _ _ (proj2 (leg_der i t))). Qed.
  Lemma cont_ext f g t : (forall x, g x = f x) -> continuity_pt f t -> continuity_pt g t.
  Proof. intros E H. intros e He. destruct (H e He) as (d & Hd & K). exists d. split; auto. intros x Hx. rewrite !E. now apply K. Qed.
  Lemma cont_scal k f t : continuity_pt f t -> continuity_pt (fun x => k * f x) t.
  Proof. intros H. apply (continuity_pt_mult (fun _ => k) f); auto. apply continuity_pt_const. now intros x y. Qed.
  Lemma cont_mult f g t : continuity_pt f t -> continuity_pt g t -> continuity_pt (fun x => f x * g x) t. Proof. intros. now apply (continuity_pt_mult f g). Qed.
  Lemma cont_plus f g t : continuity_pt f t -> continuity_pt g t -> continuity_pt (fun x => f x + g x) t. Proof. intros. now apply (continuity_pt_plus f g). Qed.
  Lemma cont_minus f g t : continuity_pt f t -> continuity_pt g t -> continuity_pt (fun x => f x - g x) t. Proof. intros. now apply (continuity_pt_minus f g). Qed.
  Lemma dleg_cont i : forall t, continuity_pt (dleg i) t /\ continuity_pt (dlegm i) t.
  Proof.
    induction i as [|i IH]; intros t.
    - split; [|apply continuity_pt_const; now intros x y]. unfold dleg. cbn [dp snd]. apply cont_scal. apply cont_mult; [apply cont_scal|apply continuity_cos].
      apply (cont_of _ _ _ (pow_deriv sin t _ (pred m) (derivable_pt_lim_sin t))).
    - destruct (IH t) as [A B]. split; [|exact A].
      apply (cont_ext (fun x => / eps m (S (m + i)) * ((- 1 * (sin x * leg i x) + cos x * dleg i x) - eps m (m + i) * dlegm i x))). { intros x. unfold dleg at 1. cbn [dp snd]. unfold leg, dleg, dlegm, Rdiv. ring. }
      apply cont_scal. apply cont_minus; [apply cont_plus|apply cont_scal, B]. { apply cont_scal, cont_mult; [apply continuity_sin|apply leg_cont]. } apply cont_mult; [apply continuity_cos|exact A].
  Qed.
  (** the two first-order relations *)
  Definition LL (i : nat) : R := INR (m + i).
  Lemma LL_S i : LL (S i) = LL i + 1. Proof. unfold LL. rewrite Nat.add_succ_r, S_INR. ring. Qed.
  Lemma ladder i : forall th, sin th * dleg i th = LL i * cos th * leg i th - (2 * LL i + 1) * eps m (m + i) * legm i th /\
    eps m (m + i) * (sin th * dlegm i th + LL i * cos th * legm i th - (2 * LL i - 1) * eps m (m + i) * leg i th) = 0.
  Proof.
    induction i as [|i IH]; intros th.
    - unfold LL. rewrite Nat.add_0_r, eps_m. split; [|ring]. unfold dleg, leg, legm. cbn [lp dp snd fst]. destruct m as [|k]; cbn [pred]; [change (INR 0) with 0; ring|]. cbn [pow]. ring.
    - destruct (IH th) as [A B]. rewrite LL_S. rewrite Nat.add_succ_r. assert (Q := leg_rec i th). assert (E := eps_step m (m + i) ltac:(lia)). fold (LL i) in E. assert (T := sin2_cos2 th). unfold Rsqr in T. split.
      + apply (Rmult_eq_reg_l (eps m (S (m + i)))); [|apply epsS]. rewrite leg_S.
        replace (eps m (S (m + i)) * (sin th * dleg (S i) th)) with (sin th * (eps m (S (m + i)) * dleg (S i) th)) by ring. rewrite dleg_rec.
        replace (sin th * (- sin th * leg i th + cos th * dleg i th - eps m (m + i) * dlegm i th)) with (- (sin th * sin th) * leg i th + cos th * (sin th * dleg i th) - eps m (m + i) * (sin th * dlegm i th)) by ring. rewrite A.
        replace (eps m (S (m + i)) * ((LL i + 1) * cos th * leg (S i) th - (2 * (LL i + 1) + 1) * eps m (S (m + i)) * leg i th)) with ((LL i + 1) * cos th * (eps m (S (m + i)) * leg (S i) th) - ((2 * LL i + 3) * (eps m (S (m + i)) * eps m (S (m + i)))) * leg i th) by ring. rewrite Q.
        replace ((2 * LL i + 3) * (eps m (S (m + i)) * eps m (S (m + i)))) with (1 + (2 * LL i - 1) * (eps m (m + i) * eps m (m + i))) by lra. replace (sin th * sin th) with (1 - cos th * cos th) by lra.
        replace (eps m (m + i) * (sin th * dlegm i th)) with (- (eps m (m + i) * (LL i * cos th * legm i th)) + (2 * LL i - 1) * (eps m (m + i) * eps m (m + i)) * leg i th) by lra. ring.
      + change (dlegm (S i) th) with (dleg i th). rewrite A, leg_S. replace (eps m (S (m + i)) * (LL i * cos th * leg i th - (2 * LL i + 1) * eps m (m + i) * legm i th + (LL i + 1) * cos th * leg i th - (2 * (LL i + 1) - 1) * eps m (S (m + i)) * leg (S i) th)) with
          (eps m (S (m + i)) * ((2 * LL i + 1) * (cos th * leg i th - eps m (m + i) * legm i th - eps m (S (m + i)) * leg (S i) th))) by ring. rewrite Q. ring.
  Qed.
  (** the differential equation *)
  Definition qq (i : nat) (th : R) : R := - (LL i * sin th * leg i th) + LL i * cos th * dleg i th - (2 * LL i + 1) * eps m (m + i) * dlegm i th.
  Lemma D_der i th : derivable_pt_lim (fun t => sin t * dleg i t) th (qq i th).
  Proof.
    apply derivable_pt_lim_ext with (f := fun t => LL i * (cos t * leg i t) - ((2 * LL i + 1) * eps m (m + i)) * legm i t). { intros t. rewrite (proj1 (ladder i t)). ring. }
    destruct (leg_der i th) as [A B]. replace (qq i th) with (LL i * (- sin th * leg i th + cos th * dleg i th) - ((2 * LL i + 1) * eps m (m + i)) * dlegm i th) by (unfold qq; ring).
    apply (derivable_pt_lim_minus (fun t => LL i * (cos t * leg i t)) (fun t => ((2 * LL i + 1) * eps m (m + i)) * legm i t)).
    - apply (derivable_pt_lim_scal (fun t => cos t * leg i t)). apply (derivable_pt_lim_mult cos (leg i)); [apply derivable_pt_lim_cos|exact A]. - apply (derivable_pt_lim_scal (legm i)), B.
  Qed.
  Lemma ode i th : sin th * qq i th = (INR m * INR m - LL i * (LL i + 1) * (sin th * sin th)) * leg i th.
  Proof.
    destruct (ladder i th) as [A B]. assert (E := eps_sq m (m + i) ltac:(lia)). fold (LL i) in E. assert (T := sin2_cos2 th). unfold Rsqr in T. unfold qq.
    replace (sin th * (- (LL i * sin th * leg i th) + LL i * cos th * dleg i th - (2 * LL i + 1) * eps m (m + i) * dlegm i th)) with
      (- LL i * (sin th * sin th) * leg i th + LL i * cos th * (sin th * dleg i th) - (2 * LL i + 1) * (eps m (m + i) * (sin th * dlegm i th))) by ring. rewrite A.
    replace (eps m (m + i) * (sin th * dlegm i th)) with (- (eps m (m + i) * (LL i * cos th * legm i th)) + (2 * LL i - 1) * (eps m (m + i) * eps m (m + i)) * leg i th) by lra.
    replace ((2 * LL i + 1) * (- (eps m (m + i) * (LL i * cos th * legm i th)) + (2 * LL i - 1) * (eps m (m + i) * eps m (m + i)) * leg i th)) with
      (- (2 * LL i + 1) * (eps m (m + i) * (LL i * cos th * legm i th)) + ((4 * LL i * LL i - 1) * (eps m (m + i) * eps m (m + i))) * leg i th) by ring. rewrite E.
    replace (sin th * sin th) with (1 - cos th * cos th) by lra. ring.
  Qed.
  Lemma qq_cont i t : continuity_pt (qq i) t.
  Proof.
    destruct (dleg_cont i t) as [A B]. apply (cont_ext (fun x => ((- LL i) * (sin x * leg i x) + LL i * (cos x * dleg i x)) - ((2 * LL i + 1) * eps m (m + i)) * dlegm i x)). { intros x. unfold qq. ring. }
    apply cont_minus; [apply cont_plus; apply cont_scal, cont_mult|apply cont_scal, B]; auto using leg_cont. apply continuity_sin. apply continuity_cos.
  Qed.
  Lemma cancel_sin f g : (forall t, continuity_pt f t) -> (forall t, continuity_pt g t) -> (forall t, sin t * f t = sin t * g t) -> forall t, f t = g t.
  Proof.
    intros Cf Cg H t. destruct (Req_EM_T (sin t) 0) as [Z|N]; [|now apply (Rmult_eq_reg_l (sin t))].
    destruct (Req_EM_T (f t) (g t)) as [|Ne]; auto. exfalso. assert (Ch := cont_minus f g t (Cf t) (Cg t)).
    destruct (Ch (Rabs (f t - g t))) as (d & Hd & K). { apply Rlt_gt, Rabs_pos_lt. lra. }
    set (e := Rmin d 1 / 2). assert (Pd : 0 < Rmin d 1) by (apply Rmin_pos; lra). assert (e < d /\ e <= 1 / 2 /\ 0 < e) as (E1 & E2 & E3). { assert (A := Rmin_l d 1). assert (B := Rmin_r d 1). unfold e. lra. }
    assert (K1 := K (t + e)). cbv [dist R_met Base] in K1. simpl in K1. unfold R_dist in K1. assert (L : Rabs (f (t + e) - g (t + e) - (f t - g t)) < Rabs (f t - g t)).
    { apply K1. split. { unfold D_x, no_cond. split; auto. lra. } replace (t + e - t) with e by ring. rewrite Rabs_right; lra. }
    assert (Sz : sin (t + e) <> 0). { rewrite sin_plus, Z. assert (PP := PI2_1). assert (0 < sin e) by (apply sin_gt_0; lra). assert (T := sin2_cos2 t). unfold Rsqr in T. rewrite Z in T. intros Q. assert (cos t * sin e = 0) by lra. apply Rmult_integral in H1 as [H1|H1]; [rewrite H1 in T|]; lra. }
    assert (f (t + e) = g (t + e)) by (apply (Rmult_eq_reg_l (sin (t + e))); auto). rewrite H0 in L. replace (g (t + e) - g (t + e) - (f t - g t)) with (- (f t - g t)) in L by ring. rewrite Rabs_Ropp in L. lra.
  Qed.
  Definition ip (i k : nat) (th : R) : R := sin th * (leg i th * leg k th).
  Lemma flux_leg i k th : qq i th * leg k th - leg i th * qq k th = (LL k * (LL k + 1) - LL i * (LL i + 1)) * ip i k th.
  Proof.
    revert th. apply cancel_sin.
    - intros t. apply cont_minus; apply cont_mult; auto using leg_cont, qq_cont.
    - intros t. unfold ip. apply cont_scal. apply cont_mult; [apply continuity_sin|apply cont_mult; apply leg_cont].
    - intros t. replace (sin t * (qq i t * leg k t - leg i t * qq k t)) with ((sin t * qq i t) * leg k t - leg i t * (sin t * qq k t)) by ring. rewrite !ode. unfold ip. ring.
  Qed.
  Lemma leg_orth i k : i <> k -> integral (ip i k) 0 PI 0.
  Proof.
    intros N. assert (A : integral (fun t => (LL k * (LL k + 1) - LL i * (LL i + 1)) * ip i k t) 0 PI 0).
    { exists (fun t => (sin t * dleg i t) * leg k t - leg i t * (sin t * dleg k t)). split; [|rewrite sin_PI, sin_0; ring]. intros t. rewrite <- flux_leg.
      replace (qq i t * leg k t - leg i t * qq k t) with ((qq i t * leg k t + (sin t * dleg i t) * dleg k t) - (dleg i t * (sin t * dleg k t) + leg i t * qq k t)) by ring.
      apply (derivable_pt_lim_minus (fun t => (sin t * dleg i t) * leg k t) (fun t => leg i t * (sin t * dleg k t))).
      - apply (derivable_pt_lim_mult (fun t => sin t * dleg i t) (leg k)); [apply D_der|apply leg_der]. - apply (derivable_pt_lim_mult (leg i) (fun t => sin t * dleg k t)); [apply leg_der|apply D_der]. }
    assert (Nz : LL k * (LL k + 1) - LL i * (LL i + 1) <> 0).
    { assert (LL k <> LL i) by (unfold LL; intros Q; apply INR_eq in Q; lia). assert (0 <= LL k) by apply pos_INR. assert (0 <= LL i) by apply pos_INR. replace (LL k * (LL k + 1) - LL i * (LL i + 1)) with ((LL k - LL i) * (LL k + LL i + 1)) by ring. apply Rmult_integral_contrapositive. split; lra. }
    refine (int_ext _ _ 0 PI _ _ _ _ (int_scal _ 0 PI _ (/ (LL k * (LL k + 1) - LL i * (LL i + 1))) A)). { intros t. field. exact Nz. } ring.
  Qed.
  Lemma leg_norm_step i x : integral (ip i i) 0 PI x -> integral (ip (S i) (S i)) 0 PI x.
  Proof.
    intros H. assert (A := leg_orth i (S (S i)) ltac:(lia)).
    assert (B : integral (fun t => eps m (m + i) * (sin t * (legm i t * leg (S i) t))) 0 PI 0).
    { destruct i as [|i]. { rewrite Nat.add_0_r, eps_m. exists (fun _ => 0). split; [|ring]. intros t. rewrite Rmult_0_l. apply derivable_pt_lim_const. }
      refine (int_ext _ _ 0 PI _ _ _ _ (int_scal _ 0 PI _ (eps m (m + S i)) (leg_orth i (S (S i)) ltac:(lia)))). { intros t. rewrite leg_S. reflexivity. } ring. }
    assert (Q := int_lin _ _ 0 PI _ _ 1 (eps m (S (m + S i)) / eps m (S (m + i))) H A). assert (Q2 := int_lin _ _ 0 PI _ _ 1 (- / eps m (S (m + i))) Q B).
    refine (int_ext _ _ 0 PI _ _ _ _ Q2); [|ring]. intros t. assert (R1 := leg_rec i t). assert (R2 := leg_rec (S i) t). rewrite leg_S in R2. assert (Ne := epsS i). unfold ip. cbv beta. rewrite Nat.add_succ_r in *.
    apply (Rmult_eq_reg_l (eps m (S (m + i)))); [|exact Ne].
    replace (eps m (S (m + i)) * (sin t * (leg (S i) t * leg (S i) t))) with (sin t * leg (S i) t * (eps m (S (m + i)) * leg (S i) t)) by ring. rewrite R1.
    transitivity (sin t * leg i t * (eps m (S (m + i)) * leg i t + eps m (S (S (m + i))) * leg (S (S i)) t) - eps m (m + i) * (sin t * (legm i t * leg (S i) t))); [field; exact Ne|]. rewrite R2. ring.
  Qed.
  Hypothesis (HC : C * C = INR (fact (2 * m + 1)) / (2 * 4 ^ m * (INR (fact m) * INR (fact m)))).
  Lemma leg_norm i : integral (ip i i) 0 PI 1.
  Proof.
    induction i as [|i IH]; [|now apply leg_norm_step].
    refine (int_ext _ _ 0 PI _ _ _ _ (int_scal _ 0 PI _ (C * C * 4 ^ m) (beta_int m m))).
    - intros t. unfold ip, leg. cbn [lp snd]. replace (sin t ^ m) with (2 ^ m * (cos (t / 2) ^ m * sin (t / 2) ^ m)).
      + replace 4 with (2 * 2) by ring. rewrite (Rpow_mult_distr 2 2). replace (2 * m)%nat with (m + m)%nat by lia. rewrite !pow_add. ring.
      + rewrite (sin_half t). rewrite <- !Rpow_mult_distr. reflexivity.
    - rewrite HC. replace (m + m + 1)%nat with (2 * m + 1)%nat by lia. field. split; [apply INR_fact_neq_0|]. split; [apply INR_fact_neq_0|apply pow_nonzero; lra].
  Qed.
  (** change of the constant *)
End Leg.
Lemma leg_scal m C i th : leg m C i th = C * leg m 1 i th /\ legm m C i th = C * legm m 1 i th.
Proof.
  induction i as [|i [A B]]. { unfold leg, legm. cbn [lp snd fst]. split; ring. }
  rewrite !leg_S. split; auto. apply (Rmult_eq_reg_l (eps m (S (m + i)))); [|apply epsS]. rewrite leg_rec, A, B. replace (eps m (S (m + i)) * (C * leg m 1 (S i) th)) with (C * (eps m (S (m + i)) * leg m 1 (S i) th)) by ring. rewrite leg_rec. ring.
Qed.

(** ** the quadrature rule *)
Definition node (B j : nat) : R := INR (2 * j + 1) * (PI / INR (4 * B)).
Definition wq (B j : nat) : R := 2 / INR B * (sin (node B j) * Sig B (fun k => 1 / INR (2 * k + 1) * sin (INR (2 * k + 1) * node B j))).
Lemma node_sum B n : (0 < n < 4 * B)%nat -> Sig (2 * B) (fun j => cos (INR n * node B j)) = 0.
Proof.
  intros H. rewrite <- (zeros_sum (2 * B) n) by lia. apply Sig_ext. intros j _. f_equal. unfold node. rewrite plus_INR, !mult_INR. change (INR 1) with 1. replace (INR 2) with 2 by (simpl; ring). replace (INR 4) with 4 by (simpl; ring). field. apply not_0_INR. lia.
Qed.
Lemma node_ss B a b : (1 <= a <= 2 * B)%nat -> (1 <= b < 2 * B)%nat -> Sig (2 * B) (fun j => sin (INR a * node B j) * sin (INR b * node B j)) = if (a =? b)%nat then INR B else 0.
Proof.
  intros Ha Hb. rewrite (Sig_ext (2 * B) _ (fun j => / 2 * cos (INR (if (a <=? b)%nat then b - a else a - b) * node B j) - / 2 * cos (INR (a + b) * node B j))).
  2:{ intros j _. rewrite sin_sin_prod, cos_absdiff. replace (INR a * node B j + INR b * node B j) with (INR (a + b) * node B j) by (rewrite plus_INR; ring). field. }
  rewrite Sig_minus, !Sig_scal. rewrite (node_sum B (a + b)) by lia. destruct (Nat.eqb_spec a b) as [->|N].
  - rewrite Nat.leb_refl, Nat.sub_diag. rewrite (Sig_ext _ _ (fun _ => 1)). { rewrite Sig_const, mult_INR. replace (INR 2) with 2 by (simpl; ring). field. } intros j _. change (INR 0) with 0. rewrite Rmult_0_l. apply cos_0.
  - rewrite node_sum. ring. destruct (Nat.leb_spec a b); lia.
Qed.
(** sine number a against the weights *)
Lemma wq_sin B a : (1 <= B)%nat -> (1 <= a <= 2 * B)%nat ->
  Sig (2 * B) (fun j => 2 / INR B * Sig B (fun k => 1 / INR (2 * k + 1) * sin (INR (2 * k + 1) * node B j)) * sin (INR a * node B j)) = if Nat.odd a then 2 / INR a else 0.
Proof.
  intros HB Ha. assert (PB : INR B <> 0) by (apply not_0_INR; lia).
  rewrite (Sig_ext (2 * B) _ (fun j => Sig B (fun k => 2 / INR B * (1 / INR (2 * k + 1)) * (sin (INR a * node B j) * sin (INR (2 * k + 1) * node B j))))).
  2:{ intros j _. rewrite (Rmult_assoc (2 / INR B)), (Rmult_comm _ (sin (INR a * _))). rewrite <- (Rmult_assoc (2 / INR B)), <- Sig_scal. apply Sig_ext. intros k _. ring. }
  rewrite Sig_swap. rewrite (Sig_ext B _ (fun k => if (a =? 2 * k + 1)%nat then 2 / INR a else 0)).
  2:{ intros k Hk. rewrite Sig_scal, node_ss by lia. destruct (Nat.eqb_spec a (2 * k + 1)) as [->|]; [|ring]. field. split; auto. apply not_0_INR; lia. }
  destruct (Nat.odd a) eqn:O.
  - apply Nat.odd_spec in O as [k ->]. rewrite (Sig_single B k); [now rewrite Nat.eqb_refl|lia|]. intros i Hi Ni. destruct (Nat.eqb_spec (2 * k + 1) (2 * i + 1)); [lia|reflexivity].
  - apply Sig_zero. intros k Hk. destruct (Nat.eqb_spec a (2 * k + 1)) as [->|]; auto. rewrite Nat.odd_add, Nat.odd_mul in O. discriminate.
Qed.
Lemma int_sin n : (1 <= n)%nat -> integral (fun t => sin (INR n * t)) 0 PI (if Nat.odd n then 2 / INR n else 0).
Proof.
  intros H. assert (P : 0 < INR n) by (apply lt_0_INR; lia). exists (fun t => - / INR n * cos (INR n * t)). split.
  - intros t. replace (sin (INR n * t)) with (- / INR n * (- sin (INR n * t) * INR n)) by (field; lra). apply (derivable_pt_lim_scal (fun t => cos (INR n * t))).
    apply (derivable_pt_lim_comp (fun t => INR n * t) cos); [|apply derivable_pt_lim_cos]. assert (X := derivable_pt_lim_scal id (INR n) t 1 (derivable_pt_lim_id t)). rewrite Rmult_1_r in X. exact X.
  - rewrite cos_nPI, Rmult_0_r, cos_0. destruct (Nat.odd n) eqn:O.
    + apply Nat.odd_spec in O as [k ->]. rewrite pow_add, pow_m1_double. field. apply not_0_INR. lia.
    + assert (Nat.even n = true) as E by (rewrite <- Nat.negb_odd, O; reflexivity). apply Nat.even_spec in E as [k ->]. rewrite pow_m1_double. ring.
Qed.
(** even trigonometric polynomials *)
Inductive CP : nat -> (R -> R) -> Prop :=
| CPcos D n : (n <= D)%nat -> CP D (fun t => cos (INR n * t))
| CPplus D f g : CP D f -> CP D g -> CP D (fun t => f t + g t)
| CPscal D f k : CP D f -> CP D (fun t => k * f t)
| CPext D f g : CP D f -> (forall t, g t = f t) -> CP D g.
Lemma wq_cos B n : (1 <= B)%nat -> (n < 2 * B)%nat -> exists x, integral (fun t => sin t * cos (INR n * t)) 0 PI x /\ Sig (2 * B) (fun j => wq B j * cos (INR n * node B j)) = x.
Proof.
  intros HB Hn. set (W := fun j => 2 / INR B * Sig B (fun k => 1 / INR (2 * k + 1) * sin (INR (2 * k + 1) * node B j))).
  assert (E : forall j, wq B j * cos (INR n * node B j) = W j * (sin (node B j) * cos (INR n * node B j))) by (intros j; unfold wq, W; ring).
  assert (Sg : forall t, sin t * cos (INR n * t) = match n with O => 1 * sin (INR 1 * t) + 0 * 0 | 1 => / 2 * sin (INR 2 * t) + 0 * 0 | S (S k) => / 2 * sin (INR (S (S (S k))) * t) + - / 2 * sin (INR (S k) * t) end).
  { intros t. rewrite sin_cos_prod. destruct n as [|[|k]].
    - change (INR 0) with 0. change (INR 1) with 1. replace (t - 0 * t) with t by ring. replace (t + 0 * t) with t by ring. replace (1 * t) with t by ring. field.
    - change (INR 1) with 1. rewrite Rmult_1_l. replace (t - t) with 0 by ring. rewrite sin_0. replace (INR 2) with 2 by (simpl; ring). replace (t + t) with (2 * t) by ring. field.
    - rewrite !S_INR. replace (t - (INR k + 1 + 1) * t) with (- ((INR k + 1) * t)) by ring. rewrite sin_neg. replace (t + (INR k + 1 + 1) * t) with ((INR k + 1 + 1 + 1) * t) by ring. field. }
  assert (Sw : forall a, (1 <= a <= 2 * B)%nat -> Sig (2 * B) (fun j => W j * sin (INR a * node B j)) = if Nat.odd a then 2 / INR a else 0) by (intros a Ha; apply wq_sin; auto).
  assert (Z0 : integral (fun _ => 0) 0 PI 0). { exists (fun _ => 0). split; [|ring]. intros. apply derivable_pt_lim_const. }
  rewrite (Sig_ext (2 * B) _ _ (fun j _ => E j)). destruct n as [|[|k]].
  - exists (1 * (if Nat.odd 1 then 2 / INR 1 else 0) + 0 * 0). split.
    + refine (int_ext _ _ 0 PI _ _ _ _ (int_lin _ _ 0 PI _ _ 1 0 (int_sin 1 ltac:(lia)) Z0)). { intros t. rewrite (Sg t). ring. } reflexivity.
    + rewrite <- (Sw 1%nat) by lia. rewrite <- Sig_scal. rewrite Rmult_0_l, Rplus_0_r. apply Sig_ext. intros j _. rewrite (Sg (node B j)). ring.
  - exists (/ 2 * (if Nat.odd 2 then 2 / INR 2 else 0) + 0 * 0). split.
    + refine (int_ext _ _ 0 PI _ _ _ _ (int_lin _ _ 0 PI _ _ (/ 2) 0 (int_sin 2 ltac:(lia)) Z0)). { intros t. rewrite (Sg t). ring. } reflexivity.
    + rewrite <- (Sw 2%nat) by lia. rewrite <- Sig_scal. rewrite Rmult_0_l, Rplus_0_r. apply Sig_ext. intros j _. rewrite (Sg (node B j)). ring.
  - exists (/ 2 * (if Nat.odd (S (S (S k))) then 2 / INR (S (S (S k))) else 0) + - / 2 * (if Nat.odd (S k) then 2 / INR (S k) else 0)). split.
    + refine (int_ext _ _ 0 PI _ _ _ _ (int_lin _ _ 0 PI _ _ (/ 2) (- / 2) (int_sin (S (S (S k))) ltac:(lia)) (int_sin (S k) ltac:(lia)))). { intros t. now rewrite (Sg t). } reflexivity.
    + rewrite <- (Sw (S (S (S k)))), <- (Sw (S k)) by lia. rewrite <- !Sig_scal, <- Sig_plus. apply Sig_ext. intros j _. rewrite (Sg (node B j)). ring.
Qed.
Lemma wq_exact B D f : (1 <= B)%nat -> (D < 2 * B)%nat -> CP D f -> exists x, integral (fun t => sin t * f t) 0 PI x /\ Sig (2 * B) (fun j => wq B j * f (node B j)) = x.
Proof.
  intros HB HD H. induction H as [D n Hn|D f g _ IHf _ IHg|D f k _ IH|D f g _ IH E].
  - apply wq_cos; lia.
  - destruct (IHf HD) as (x & Ix & Sx), (IHg HD) as (y & Iy & Sy). exists (x + y). split.
    + refine (int_ext _ _ 0 PI _ _ _ _ (int_lin _ _ 0 PI _ _ 1 1 Ix Iy)). { intros t. ring. } ring.
    + rewrite <- Sx, <- Sy, <- Sig_plus. apply Sig_ext. intros j _. ring.
  - destruct (IH HD) as (x & Ix & Sx). exists (k * x). split. { refine (int_ext _ _ 0 PI _ _ _ _ (int_scal _ 0 PI _ k Ix)). { intros t. ring. } ring. } rewrite <- Sx, <- Sig_scal. apply Sig_ext. intros j _. ring.
  - destruct (IH HD) as (x & Ix & Sx). exists x. split. { refine (int_ext _ _ 0 PI _ _ _ _ Ix). { intros t. now rewrite E. } ring. } rewrite <- Sx. apply Sig_ext. intros j _. now rewrite E.
Qed.
Lemma CP_le D D' f : CP D f -> (D <= D')%nat -> CP D' f.
Proof. intros H. induction H; intros L. - apply CPcos; lia. - apply CPplus; auto. - apply CPscal; auto. - apply (CPext _ f); auto. Qed.
Lemma CP_cos D f : CP D f -> CP (S D) (fun t => cos t * f t).
Proof.
  intros H. induction H as [D n Hn|D f g _ IHf _ IHg|D f k _ IH|D f g _ IH E].
  - destruct n as [|n].
    + apply (CPext _ (fun t => cos (INR 1 * t))); [apply CPcos; lia|]. intros t. change (INR 0) with 0. change (INR 1) with 1. rewrite Rmult_0_l, cos_0, Rmult_1_l. ring.
    + apply (CPext _ (fun t => / 2 * cos (INR n * t) + / 2 * cos (INR (S (S n)) * t))); [apply CPplus; apply CPscal, CPcos; lia|]. intros t. rewrite (Rmult_comm (cos t)), cos_cos_prod. rewrite !S_INR.
      replace ((INR n + 1) * t - t) with (INR n * t) by ring. replace ((INR n + 1) * t + t) with ((INR n + 1 + 1) * t) by ring. field.
  - apply (CPext _ (fun t => cos t * f t + cos t * g t)); [now apply CPplus|]. intros; ring.
  - apply (CPext _ (fun t => k * (cos t * f t))); [now apply CPscal|]. intros; ring.
  - apply (CPext _ (fun t => cos t * f t)); auto. intros t. now rewrite E.
Qed.
Lemma CP_one D : CP D (fun _ => 1).
Proof. apply (CPext _ (fun t => cos (INR 0 * t))); [apply CPcos; lia|]. intros t. change (INR 0) with 0. now rewrite Rmult_0_l, cos_0. Qed.
Lemma CP_sin2 m : CP (2 * m) (fun t => sin t ^ m * sin t ^ m).
Proof.
  induction m as [|m IH]. { apply (CPext _ (fun _ => 1)); [apply CP_one|]. intros; cbn [pow]; ring. }
  replace (2 * S m)%nat with (S (S (2 * m))) by lia. apply (CPext _ (fun t => sin t ^ m * sin t ^ m + - 1 * (cos t * (cos t * (sin t ^ m * sin t ^ m))))).
  - apply CPplus; [apply (CP_le (2 * m)); auto; lia|]. apply CPscal. now apply CP_cos, CP_cos.
  - intros t. cbn [pow]. assert (T := sin2_cos2 t). unfold Rsqr in T. replace (sin t * sin t ^ m * (sin t * sin t ^ m)) with ((sin t * sin t) * (sin t ^ m * sin t ^ m)) by ring. replace (sin t * sin t) with (1 - cos t * cos t) by lra. ring.
Qed.
(** products of Legendre functions *)
Lemma CP_leg_gen m C g D : CP D (fun t => sin t ^ m * g t) -> forall i, CP (D + i) (fun t => leg m C i t * g t) /\ CP (D + i) (fun t => legm m C i t * g t).
Proof.
  intros H. induction i as [|i [A B]].
  - rewrite Nat.add_0_r. split. { apply (CPext _ (fun t => C * (sin t ^ m * g t))); [now apply CPscal|]. intros t. unfold leg. cbn [lp snd]. ring. }
    apply (CPext _ (fun t => 0 * (sin t ^ m * g t))); [now apply CPscal|]. intros t. unfold legm. cbn [lp fst]. ring.
  - rewrite Nat.add_succ_r. split; [|apply (CP_le (D + i)); auto; lia].
    apply (CPext _ (fun t => / eps m (S (m + i)) * (cos t * (leg m C i t * g t) + - eps m (m + i) * (legm m C i t * g t)))).
    + apply CPscal, CPplus; [now apply CP_cos|apply CPscal, (CP_le (D + i)); auto; lia].
    + intros t. assert (Q := leg_rec m C i t). apply (Rmult_eq_reg_l (eps m (S (m + i)))); [|apply epsS]. rewrite <- Rmult_assoc, Q. field. apply epsS.
Qed.
Lemma CP_leg m C i k : CP (2 * m + i + k) (fun t => leg m C i t * leg m C k t).
Proof.
  apply (CPext _ (fun t => leg m C k t * leg m C i t)); [|intros; ring]. apply CP_leg_gen.
  apply (CPext _ (fun t => leg m C i t * sin t ^ m)); [|intros; ring]. apply CP_leg_gen. apply CP_sin2.
Qed.
Definition normC (m : nat) (C : R) : Prop := C * C = INR (fact (2 * m + 1)) / (2 * 4 ^ m * (INR (fact m) * INR (fact m))).
Lemma leg_discrete B m C i k : normC m C -> (m + i < B)%nat -> (m + k < B)%nat -> Sig (2 * B) (fun j => wq B j * (leg m C i (node B j) * leg m C k (node B j))) = delta i k.
Proof.
  intros HC Hi Hk. destruct (wq_exact B (2 * m + i + k) (fun t => leg m C i t * leg m C k t) ltac:(lia) ltac:(lia) (CP_leg m C i k)) as (x & Ix & ->).
  destruct (Nat.eq_dec i k) as [->|N].
  - rewrite delta_eq. apply (Integ_props.integral_unique (fun t => sin t * (leg m C k t * leg m C k t)) 0 PI); [assert (Q := PI_RGT_0); lra|exact Ix|]. apply (leg_norm m C HC).
  - rewrite delta_ne by auto. apply (Integ_props.integral_unique (fun t => sin t * (leg m C i t * leg m C k t)) 0 PI); [assert (Q := PI_RGT_0); lra|exact Ix|]. now apply leg_orth.
Qed.
