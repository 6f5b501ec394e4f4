(** C106: initial data of TestID: gauge wave, linear wave, random noise. *)
From Verif Require Import Rutil Base Coord_model Coord_spec Adm_model Adm_spec Adm_proofs Adm2_proofs Adm_props Adm3_proofs Bh_props Ks_proofs Conv_model Conv_spec Conv_props Tid_model Tid_spec Tid_proofs.
From Coq Require Import Lia List.
Import ListNotations.
Local Open Scope R_scope.
Lemma dl_val f x l m : l = m -> derivable_pt_lim f x l -> derivable_pt_lim f x m. Proof. now intros <-. Qed.
Lemma dl_sin a b x : derivable_pt_lim (fun x => sin (a * x + b)) x (a * cos (a * x + b)).
Proof. eapply dl_val; [|apply (derivable_pt_lim_comp (fun x => a * x + b) sin); [apply (derivable_pt_lim_plus (fun x => a * x) (fun _ => b)); [apply (derivable_pt_lim_scal (fun x => x)), derivable_pt_lim_id|apply derivable_pt_lim_const]|apply derivable_pt_lim_sin]]. ring. Qed.
Lemma dl_cos a b x : derivable_pt_lim (fun x => cos (a * x + b)) x (- (a * sin (a * x + b))).
Proof. eapply dl_val; [|apply (derivable_pt_lim_comp (fun x => a * x + b) cos); [apply (derivable_pt_lim_plus (fun x => a * x) (fun _ => b)); [apply (derivable_pt_lim_scal (fun x => x)), derivable_pt_lim_id|apply derivable_pt_lim_const]|apply derivable_pt_lim_cos]]. ring. Qed.
Lemma dl_ext f g x l : (forall x, f x = g x) -> derivable_pt_lim f x l -> derivable_pt_lim g x l.
Proof. intros E D eps P. destruct (D eps P) as (d & H). exists d. intros t T L. rewrite <- !E. now apply H. Qed.
Lemma dl_ext_near f g x l d : 0 < d -> (forall y, Rabs (y - x) < d -> f y = g y) -> derivable_pt_lim f x l -> derivable_pt_lim g x l.
Proof.
  intros P E H eps Q. destruct (H eps Q) as (d1 & H1). assert (M : 0 < Rmin d d1) by (apply Rmin_glb_lt; [auto|apply cond_pos]). exists (mkposreal _ M). intros t T L. cbn in L.
  pose proof (Rmin_l d d1). pose proof (Rmin_r d d1). rewrite <- !E; [apply H1; auto; lra| |]. - replace (x - x) with 0 by ring. rewrite Rabs_R0. lra. - replace (x + t - x) with t by ring. lra.
Qed.
Lemma dl_sqrt f x l : 0 < f x -> derivable_pt_lim f x l -> derivable_pt_lim (fun x => sqrt (f x)) x (l / (2 * sqrt (f x))).
Proof. intros P D. eapply dl_val; [|apply (derivable_pt_lim_comp f sqrt); [exact D|apply derivable_pt_lim_sqrt, P]]. unfold Rdiv. ring. Qed.
Lemma dl_div f g x l m : g x <> 0 -> derivable_pt_lim f x l -> derivable_pt_lim g x m -> derivable_pt_lim (fun x => f x / g x) x ((l * g x - m * f x) / Rsqr (g x)).
Proof. intros. now apply (derivable_pt_lim_div f g). Qed.
Lemma abs_b x b : Rabs x <= b -> - b <= x <= b. Proof. unfold Rabs. destruct (Rcase_abs x); lra. Qed.
Section W.
Variables (A L : R).
Hypothesis (HL : L <> 0).
Definition om : R := 2 * PI / L.
(** the wave and its derivatives in x at t=0 *)
Definition bw (x : R) : R := A * sin (om * x + 0).
Definition bw1 (x : R) : R := A * (om * cos (om * x + 0)).
Definition bw2 (x : R) : R := - (A * (om * (om * sin (om * x + 0)))).
Definition bw3 (x : R) : R := - (A * (om * (om * (om * cos (om * x + 0))))).
Lemma d_bw x : derivable_pt_lim bw x (bw1 x). Proof. apply (derivable_pt_lim_scal (fun x => sin (om * x + 0))), dl_sin. Qed.
Lemma d_bw1 x : derivable_pt_lim bw1 x (bw2 x).
Proof. eapply dl_val; [|apply (derivable_pt_lim_scal (fun x => om * cos (om * x + 0))), (derivable_pt_lim_scal (fun x => cos (om * x + 0))), dl_cos]. unfold bw2. ring. Qed.
Lemma bw_wave x : wave A L 0 x = bw x. Proof. unfold wave, bw, om. f_equal. f_equal. field. auto. Qed.
Lemma arg0 x : 2 * PI * (x - 0) / L = om * x + 0. Proof. unfold om. field. auto. Qed.
Lemma wave_t x t : derivable_pt_lim (fun t => wave A L t x) t (- (A * (om * cos (om * (x - t))))).
Proof.
  apply (dl_ext (fun t => A * sin (- om * t + om * x))); [intros s; unfold wave, om; f_equal; f_equal; field; auto|]. eapply dl_val; [|apply (derivable_pt_lim_scal (fun t => sin (- om * t + om * x))), dl_sin].
  replace (- om * t + om * x) with (om * (x - t)) by ring. ring.
Qed.
End W.
(** ** gauge wave *)
Section G.
Variables (A L : R).
Hypothesis (HL : L <> 0).
Theorem C106_gauge_flat : flat_2d (fun t x => 1 + wave A L t x).
Proof.
  set (U := fun t x => (x - t) - A / om L * cos (om L * (x - t))).
  assert (ON : om L <> 0). { unfold om. pose proof PI_RGT_0. apply Rmult_integral_contrapositive_currified; [lra|now apply Rinv_neq_0_compat]. }
  assert (W : forall t x, wave A L t x = A * sin (om L * (x - t))) by (intros; unfold wave, om; f_equal; f_equal; field; auto).
  assert (Ux : forall t x, derivable_pt_lim (fun x => U t x) x (1 + wave A L t x)).
  { intros t x. apply (dl_ext (fun x => (x + - t) - A / om L * cos (om L * x + - om L * t))); [intros s; unfold U; replace (om L * s + - om L * t) with (om L * (s - t)) by ring; ring|].
    eapply dl_val; [|apply (derivable_pt_lim_minus (fun x => x + - t) (fun x => A / om L * cos (om L * x + - om L * t))); [apply (derivable_pt_lim_plus (fun x => x) (fun _ => - t)); [apply derivable_pt_lim_id|apply derivable_pt_lim_const]|apply (derivable_pt_lim_scal (fun x => cos (om L * x + - om L * t))), dl_cos]].
    rewrite W. replace (om L * x + - om L * t) with (om L * (x - t)) by ring. field. auto. }
  assert (Ut : forall t x, derivable_pt_lim (fun t => U t x) t (- (1 + wave A L t x))).
  { intros t x. apply (dl_ext (fun t => (x - t) - A / om L * cos (- om L * t + om L * x))); [intros s; unfold U; replace (- om L * s + om L * x) with (om L * (x - s)) by ring; ring|].
    eapply dl_val; [|apply (derivable_pt_lim_minus (fun t => x - t) (fun t => A / om L * cos (- om L * t + om L * x))); [apply (derivable_pt_lim_minus (fun _ => x) (fun t => t)); [apply derivable_pt_lim_const|apply derivable_pt_lim_id]|apply (derivable_pt_lim_scal (fun t => cos (- om L * t + om L * x))), dl_cos]].
    rewrite W. replace (- om L * t + om L * x) with (om L * (x - t)) by ring. field. auto. }
  exists (fun t x => / 2 * ((x + t) - U t x)), (fun t x => / 2 * ((x + t) + U t x)), (fun t x => / 2 * (1 + (1 + wave A L t x))), (fun t x => / 2 * (1 - (1 + wave A L t x))), (fun t x => / 2 * (1 - (1 + wave A L t x))), (fun t x => / 2 * (1 + (1 + wave A L t x))).
  assert (Vt : forall t x, derivable_pt_lim (fun t => x + t) t 1) by (intros t x; eapply dl_val; [|apply (derivable_pt_lim_plus (fun _ => x) (fun t => t)); [apply derivable_pt_lim_const|apply derivable_pt_lim_id]]; ring).
  assert (Vx : forall t x, derivable_pt_lim (fun x => x + t) x 1) by (intros t x; eapply dl_val; [|apply (derivable_pt_lim_plus (fun x => x) (fun _ => t)); [apply derivable_pt_lim_id|apply derivable_pt_lim_const]]; ring).
  split.
  - intros t x. repeat apply conj.
    + eapply dl_val; [|apply (derivable_pt_lim_scal (fun t => x + t - U t x)), (derivable_pt_lim_minus (fun t => x + t) (fun t => U t x)); [apply Vt|apply Ut]]. ring.
    + apply (derivable_pt_lim_scal (fun x => x + t - U t x)), (derivable_pt_lim_minus (fun x => x + t) (fun x => U t x)); [apply Vx|apply Ux].
    + eapply dl_val; [|apply (derivable_pt_lim_scal (fun t => x + t + U t x)), (derivable_pt_lim_plus (fun t => x + t) (fun t => U t x)); [apply Vt|apply Ut]]. ring.
    + apply (derivable_pt_lim_scal (fun x => x + t + U t x)), (derivable_pt_lim_plus (fun x => x + t) (fun x => U t x)); [apply Vx|apply Ux].
  - intros t x. generalize (wave A L t x). intros w. repeat split; field.
Qed.
(** the data are the slice t=0 of - (1+a) dt^2 + (1+a) dx^2 + dy^2 + dz^2 *)
Theorem C106_gauge_slice x : 0 < 1 + wave A L 0 x ->
  let u := snd (gauge_wave A L x) in
  (forall i j, i <> j -> u (s6 i j) = 0 /\ u (6 + s6 i j)%nat = 0) /\ u 0%nat = 1 + wave A L 0 x /\ u 3%nat = 1 /\ u 5%nat = 1 /\ u 12%nat ^ 2 = 1 + wave A L 0 x /\ 0 < u 12%nat /\ u 13%nat = 0 /\ u 14%nat = 0 /\ u 15%nat = 0 /\
  slice_K (fun t => 1 + wave A L t x) (fun t => sqrt (1 + wave A L t x)) 0 (u 6%nat) /\ u 9%nat = 0 /\ u 11%nat = 0.
Proof.
  intros P. cbv zeta. unfold gauge_wave. cbn [snd]. unfold wave in P. change (2 * PI * (x - 0) / L) with (2 * PI * (x - 0) / L). repeat apply conj; try reflexivity.
  - intros i j N. destruct i, j; try (now elim N); split; reflexivity.
  - cbn [nth]. rewrite pow2_sqrt; [reflexivity|]. lra.
  - cbn [nth]. apply sqrt_lt_R0, P.
  - exists (- (A * (om L * cos (om L * (x - 0))))). split.
    + eapply dl_val; [|apply (derivable_pt_lim_plus (fun _ => 1) (fun t => wave A L t x)); [apply derivable_pt_lim_const|apply wave_t, HL]]. ring.
    + cbn [nth]. unfold wave. replace (om L * (x - 0)) with (2 * PI * (x - 0) / L) by (unfold om; field; auto). unfold om. field. split; [auto|apply Rgt_not_eq, sqrt_lt_R0, P].
Qed.
Variables (ad : adm_in) (X Y Z e : R) (F : geometry).
Hypothesis (He : 0 < e) (HP : forall x, Rabs (x - X) < e -> 0 < 1 + wave A L 0 x).
Definition gg (i : d3) (x : R) : R := match i with D1 => 1 + bw A L x | _ => 1 end.
Definition gg1 (i : d3) (x : R) : R := match i with D1 => bw1 A L x | _ => 0 end.
Definition gg2 (i : d3) (x : R) : R := match i with D1 => bw2 A L x | _ => 0 end.
Definition sw (x : R) : R := sqrt (1 + bw A L x).
Definition gk (i : d3) (x : R) : R := match i with D1 => bw1 A L x / (2 * sw x) | _ => 0 end.
Definition sw1 (x : R) : R := bw1 A L x / (2 * sw x).
Definition sw2 (x : R) : R := (bw2 A L x * (2 * sw x) - 2 * sw1 x * bw1 A L x) / Rsqr (2 * sw x).
Definition gk1 (i : d3) (x : R) : R := match i with D1 => sw2 x | _ => 0 end.
Lemma bp x : Rabs (x - X) < e -> 0 < 1 + bw A L x. Proof. intros N. rewrite <- bw_wave by auto. now apply HP. Qed.
Lemma swp x : Rabs (x - X) < e -> 0 < sw x. Proof. intros N. apply sqrt_lt_R0. now apply bp. Qed.
Lemma d_one x : derivable_pt_lim (fun x => 1 + bw A L x) x (bw1 A L x).
Proof. eapply dl_val; [|apply (derivable_pt_lim_plus (fun _ => 1) (bw A L)); [apply derivable_pt_lim_const|apply d_bw]]. ring. Qed.
Lemma d_sw x : Rabs (x - X) < e -> derivable_pt_lim sw x (sw1 x). Proof. intros N. apply dl_sqrt; [now apply bp|apply d_one]. Qed.
Lemma d_sw1 x : Rabs (x - X) < e -> derivable_pt_lim sw1 x (sw2 x).
Proof. intros N. pose proof (swp x N). apply (dl_div (bw1 A L) (fun x => 2 * sw x)); [lra|apply d_bw1|]. apply (derivable_pt_lim_scal sw). now apply d_sw. Qed.
Lemma g_Dp x n : fst (gauge_wave A L x) n = psi_one n. Proof. reflexivity. Qed.
Lemma g_Dg x i j : snd (gauge_wave A L x) (s6 i j) = delta i j * gg i x.
Proof. unfold gauge_wave. rewrite arg0 by auto. destruct i, j; cbn [snd s6 nth delta gg]; unfold bw; ring. Qed.
Lemma g_Dk x i j : snd (gauge_wave A L x) (6 + s6 i j)%nat = delta i j * gk i x.
Proof.
  unfold gauge_wave. rewrite arg0 by auto. destruct i, j; cbn [snd s6 nth Nat.add delta gk]; try ring. unfold bw1, sw, bw, Rdiv. rewrite !Rinv_mult. generalize (/ sqrt (1 + A * sin (om L * x + 0))). intros w. unfold om. field. auto.
Qed.
Lemma g_Da x : snd (gauge_wave A L x) 12%nat = sw x. Proof. unfold gauge_wave, sw, bw. rewrite arg0 by auto. reflexivity. Qed.
Lemma g_0 i x : Rabs (x - X) < e -> gg i x <> 0. Proof. intros N. pose proof (bp x N). destruct i; cbn [gg]; lra. Qed.
Lemma g_1 i x : Rabs (x - X) < e -> derivable_pt_lim (gg i) x (gg1 i x). Proof. intros N. destruct i; [apply d_one|apply derivable_pt_lim_const|apply derivable_pt_lim_const]. Qed.
Lemma g_2 i x : Rabs (x - X) < e -> derivable_pt_lim (gg1 i) x (gg2 i x). Proof. intros N. destruct i; [apply d_bw1|apply derivable_pt_lim_const|apply derivable_pt_lim_const]. Qed.
Lemma g_k i x : Rabs (x - X) < e -> derivable_pt_lim (gk i) x (gk1 i x). Proof. intros N. destruct i; [now apply d_sw1|apply derivable_pt_lim_const|apply derivable_pt_lim_const]. Qed.
Definition gauge_hi := phi gg. Definition gauge_dh := pdh gg1.
Section F.
Hypothesis (HF : plane_fields (gauge_wave A L) F) (HD : derivatives_near e X Y Z F) (HG : plane_given (gauge_wave A L) ad X Y Z F).
Lemma C106_gauge_setting : setting ad X Y Z e F gauge_hi gauge_dh.
Proof. eapply (plane_setting (gauge_wave A L) gg gg1); eauto using g_Dp, g_Dg, g_Dk, g_Da, g_0, g_1, g_2, g_k, d_sw, d_sw1. Qed.
(** the constraints hold, and d trK/dt is that of the exact solution *)
Theorem C106_gauge_constraints : adm_ham ad = 0 /\ adm_mom1 ad = 0 /\ adm_mom2 ad = 0 /\ adm_mom3 ad = 0.
Proof.
  split.
  - rewrite (plane_ham (gauge_wave A L) gg gg1 gg2 gk ad X Y Z e F); auto using g_Dp, g_Dg, g_Dk, g_Da, g_0, g_1, g_2, g_k, d_sw, d_sw1. unfold plane_R. cbn [gg gg1 gg2 gk]. pose proof (bp X (X0 X e He)). pose proof (swp X (X0 X e He)). field. repeat split; lra.
  - change (adm_mom1 ad) with (v_mom ad D1). change (adm_mom2 ad) with (v_mom ad D2). change (adm_mom3 ad) with (v_mom ad D3).
    destruct (plane_mom (gauge_wave A L) gg gg1 gk gk1 ad X Y Z e F) as (E1 & E2 & E3); auto using g_Dp, g_Dg, g_Dk, g_Da, g_0, g_1, g_2, g_k, d_sw, d_sw1.
    rewrite E1. cbn [gg gg1 gk gk1]. split; auto. pose proof (bp X (X0 X e He)). pose proof (swp X (X0 X e He)). field. repeat split; lra.
Qed.
Theorem C106_gauge_dtrK (kk : R -> R) (d : R) : 0 < d -> (forall t, Rabs t < d -> slice_K (fun t => 1 + wave A L t X) (fun t => sqrt (1 + wave A L t X)) t (kk t)) ->
  derivable_pt_lim (fun t => kk t / (1 + wave A L t X)) 0 (adm_dtrKdt ad) /\ adm_trK ad = kk 0 / (1 + wave A L 0 X).
Proof.
  intros P H. pose proof (bp X (X0 X e He)) as BP. pose proof (swp X (X0 X e He)) as SP.
  set (w := fun t => 1 + wave A L t X). set (w1 := fun t => - (A * (om L * cos (om L * (X - t))))).
  assert (W0 : w 0 = 1 + bw A L X) by (unfold w; now rewrite bw_wave).
  assert (Dw : forall t, derivable_pt_lim w t (w1 t)) by (intros t; eapply dl_val; [|apply (derivable_pt_lim_plus (fun _ => 1) (fun t => wave A L t X)); [apply derivable_pt_lim_const|apply wave_t, HL]]; unfold w1; ring).
  assert (EK : forall t, Rabs t < d -> kk t = - w1 t / (2 * sqrt (w t))). { intros t T. destruct (H t T) as (l & D & E). rewrite E. f_equal. f_equal. eapply uniqueness_limite; [exact D|apply Dw]. }
  assert (W1 : w1 0 = - bw1 A L X) by (unfold w1, bw1; replace (om L * (X - 0)) with (om L * X + 0) by ring; reflexivity).
  assert (Dw1 : derivable_pt_lim w1 0 (bw2 A L X)).
  { apply (dl_ext (fun t => - A * (om L * cos (- om L * t + om L * X)))); [intros t; unfold w1; replace (- om L * t + om L * X) with (om L * (X - t)) by ring; ring|].
    eapply dl_val; [|apply (derivable_pt_lim_scal (fun t => om L * cos (- om L * t + om L * X))), (derivable_pt_lim_scal (fun t => cos (- om L * t + om L * X))), dl_cos]. unfold bw2. replace (- om L * 0 + om L * X) with (om L * X + 0) by ring. ring. }
  assert (S0 : sqrt (w 0) = sw X) by (unfold sw; now rewrite W0). assert (SQ : sw X * sw X = 1 + bw A L X) by (apply sqrt_sqrt; lra).
  split.
  - apply (dl_ext_near (fun t => - w1 t / (2 * sqrt (w t)) / w t) _ _ _ d P). { intros y N. rewrite Rminus_0_r in N. now rewrite EK. }
    eapply dl_val; [|apply (dl_div (fun t => - w1 t / (2 * sqrt (w t))) w); [rewrite W0; lra| |apply Dw]; apply (dl_div (fun t => - w1 t) (fun t => 2 * sqrt (w t))); [rewrite S0; lra|apply (derivable_pt_lim_opp w1), Dw1|apply (derivable_pt_lim_scal (fun t => sqrt (w t))), dl_sqrt; [rewrite W0; lra|apply Dw]]].
    rewrite (plane_dtr (gauge_wave A L) gg gg1 gg2 gk gk1 sw sw1 sw2 ad X Y Z e F); auto using g_Dp, g_Dg, g_Dk, g_Da, g_0, g_1, g_2, g_k, d_sw, d_sw1.
    2: { destruct HG as (_ & J & _). intros i. rewrite J by (destruct i; cbn; lia). destruct i; reflexivity. }
    unfold plane_R, sw2, sw1. cbn [gg gg1 gg2 gk]. rewrite S0, W0, W1. unfold Rsqr. rewrite <- SQ. generalize (bw1 A L X) (bw2 A L X). intros. field. lra.
  - rewrite (plane_trK (gauge_wave A L) gg gg1 gk ad X Y Z e F); auto using g_Dp, g_Dg, g_Dk, g_Da, g_0, g_1, g_2, g_k, d_sw, d_sw1. cbn [gg gk]. rewrite EK by (rewrite Rabs_R0; auto). fold (w 0). rewrite S0, W0, W1. field. lra.
Qed.
End F.
End G.
(** the default amplitude is 1, and then the metric is degenerate where the sine is -1 *)
Theorem C106_gauge_default_refuted : snd (gauge_wave 1 1 (3 / 4)) 0%nat = 0 /\ snd (gauge_wave 1 1 (3 / 4)) 12%nat = 0 /\ ~ exists hi, inverse (sym (snd (gauge_wave 1 1 (3 / 4)))) hi.
Proof.
  assert (E : sin (2 * PI * (3 / 4 - 0) / 1) = -1). { replace (2 * PI * (3 / 4 - 0) / 1) with (3 * (PI / 2)) by field. replace (3 * (PI / 2)) with (PI / 2 + PI) by field. rewrite neg_sin, sin_PI2. reflexivity. }
  assert (G : snd (gauge_wave 1 1 (3 / 4)) 0%nat = 0) by (cbn; rewrite E; ring). split; [exact G|]. split.
  - cbn. rewrite E. replace (1 + 1 * -1) with 0 by ring. apply sqrt_0.
  - intros (hi & I). pose proof (I D1 D1) as J. unfold S3, sym in J. cbn [s6 delta] in J. rewrite G in J. cbn in J. lra.
Qed.
(** ** linear wave *)
Section Lin.
Variables (A L : R).
Hypothesis (HL : L <> 0).
Theorem C106_linear_slice x : let u := snd (linear_wave A L x) in
  (forall i j, i <> j -> u (s6 i j) = 0 /\ u (6 + s6 i j)%nat = 0) /\ u 0%nat = 1 /\ u 3%nat = 1 + wave A L 0 x /\ u 5%nat = 1 - wave A L 0 x /\ u 12%nat = 1 /\ u 13%nat = 0 /\ u 14%nat = 0 /\ u 15%nat = 0 /\ u 6%nat = 0 /\
  slice_K (fun t => 1 + wave A L t x) (fun _ => 1) 0 (u 9%nat) /\ slice_K (fun t => 1 - wave A L t x) (fun _ => 1) 0 (u 11%nat).
Proof.
  cbv zeta. unfold linear_wave. cbn [snd]. repeat apply conj; try reflexivity.
  - intros i j N. destruct i, j; try (now elim N); split; reflexivity.
  - exists (- (A * (om L * cos (om L * (x - 0))))). split.
    + eapply dl_val; [|apply (derivable_pt_lim_plus (fun _ => 1) (fun t => wave A L t x)); [apply derivable_pt_lim_const|apply wave_t, HL]]. ring.
    + cbn [nth]. replace (om L * (x - 0)) with (2 * PI * (x - 0) / L) by (unfold om; field; auto). unfold om. field. auto.
  - exists (A * (om L * cos (om L * (x - 0)))). split.
    + eapply dl_val; [|apply (derivable_pt_lim_minus (fun _ => 1) (fun t => wave A L t x)); [apply derivable_pt_lim_const|apply wave_t, HL]]. ring.
    + cbn [nth]. replace (om L * (x - 0)) with (2 * PI * (x - 0) / L) by (unfold om; field; auto). unfold om. field. auto.
Qed.
Variables (ad : adm_in) (X Y Z : R) (F : geometry).
Hypothesis (HA : Rabs A <= 1 / 2).
Definition lg (i : d3) (x : R) : R := match i with D1 => 1 | D2 => 1 + bw A L x | D3 => 1 - bw A L x end.
Definition lg1 (i : d3) (x : R) : R := match i with D1 => 0 | D2 => bw1 A L x | D3 => - bw1 A L x end.
Definition lg2 (i : d3) (x : R) : R := match i with D1 => 0 | D2 => bw2 A L x | D3 => - bw2 A L x end.
Definition lk (i : d3) (x : R) : R := match i with D1 => 0 | D2 => / 2 * bw1 A L x | D3 => - / 2 * bw1 A L x end.
Definition lk1 (i : d3) (x : R) : R := match i with D1 => 0 | D2 => / 2 * bw2 A L x | D3 => - / 2 * bw2 A L x end.
Let one (x : R) : R := 1. Let zer (x : R) : R := 0.
Lemma lb x : - (1 / 2) <= bw A L x <= 1 / 2.
Proof. apply abs_b. unfold bw. rewrite Rabs_mult. pose proof (SIN_bound (om L * x + 0)). assert (Rabs (sin (om L * x + 0)) <= 1) by (apply Rabs_le; lra). pose proof (Rabs_pos A). pose proof (Rabs_pos (sin (om L * x + 0))). nra. Qed.
Lemma l_Dp x n : fst (linear_wave A L x) n = psi_one n. Proof. reflexivity. Qed.
Lemma l_Dg x i j : snd (linear_wave A L x) (s6 i j) = delta i j * lg i x.
Proof. unfold linear_wave. rewrite arg0 by auto. destruct i, j; cbn [snd s6 nth delta lg]; unfold bw; ring. Qed.
Lemma l_Dk x i j : snd (linear_wave A L x) (6 + s6 i j)%nat = delta i j * lk i x.
Proof. unfold linear_wave. rewrite arg0 by auto. destruct i, j; cbn [snd s6 nth Nat.add delta lk]; unfold bw1, om; field; auto. Qed.
Lemma l_Da x : snd (linear_wave A L x) 12%nat = one x. Proof. reflexivity. Qed.
Lemma l_0 i x : Rabs (x - X) < 1 -> lg i x <> 0. Proof. intros N. pose proof (lb x). destruct i; cbn [lg]; lra. Qed.
Lemma l_1 i x : Rabs (x - X) < 1 -> derivable_pt_lim (lg i) x (lg1 i x).
Proof. intros N. destruct i; cbn [lg1]; [apply derivable_pt_lim_const|apply d_one|]. eapply dl_val; [|apply (derivable_pt_lim_minus (fun _ => 1) (bw A L)); [apply derivable_pt_lim_const|apply d_bw]]. ring. Qed.
Lemma l_2 i x : Rabs (x - X) < 1 -> derivable_pt_lim (lg1 i) x (lg2 i x).
Proof. intros N. destruct i; cbn [lg2]; [apply derivable_pt_lim_const|apply d_bw1|apply (derivable_pt_lim_opp (bw1 A L)), d_bw1]. Qed.
Lemma l_k i x : Rabs (x - X) < 1 -> derivable_pt_lim (lk i) x (lk1 i x).
Proof. intros N. destruct i; cbn [lk1]; [apply derivable_pt_lim_const|apply (derivable_pt_lim_scal (bw1 A L)), d_bw1|apply (derivable_pt_lim_scal (bw1 A L)), d_bw1]. Qed.
Lemma l_a x : Rabs (x - X) < 1 -> derivable_pt_lim one x (zer x). Proof. intros _. apply derivable_pt_lim_const. Qed.
Lemma l_a1 x : Rabs (x - X) < 1 -> derivable_pt_lim zer x (zer x). Proof. intros _. apply derivable_pt_lim_const. Qed.
Section F.
Hypothesis (HF : plane_fields (linear_wave A L) F) (HD : derivatives_near 1 X Y Z F) (HG : plane_given (linear_wave A L) ad X Y Z F).
Lemma l_setting : setting ad X Y Z 1 F (phi lg) (pdh lg1).
Proof. eapply (plane_setting (linear_wave A L) lg lg1); eauto using l_Dp, l_Dg, l_Dk, l_Da, l_0, l_1, l_2, l_k, l_a, l_a1, Rlt_0_1. Qed.
Lemma l_ham : let b := bw A L X in adm_ham ad = 2 * b * bw2 A L X / (1 - b ^ 2) + bw1 A L X ^ 2 * (1 + b ^ 2) / (1 - b ^ 2) ^ 2.
Proof.
  cbv zeta. rewrite (plane_ham (linear_wave A L) lg lg1 lg2 lk ad X Y Z 1 F); auto using l_Dp, l_Dg, l_Dk, l_Da, l_0, l_1, l_2, l_k, l_a, l_a1, Rlt_0_1. unfold plane_R. cbn [lg lg1 lg2 lk]. pose proof (lb X). field. repeat split; nra.
Qed.
Lemma l_mom : v_mom ad D1 = adm_ham ad / 2 /\ v_mom ad D2 = 0 /\ v_mom ad D3 = 0.
Proof.
  destruct (plane_mom (linear_wave A L) lg lg1 lk lk1 ad X Y Z 1 F) as (E1 & E2 & E3); auto using l_Dp, l_Dg, l_Dk, l_Da, l_0, l_1, l_2, l_k, l_a, l_a1, Rlt_0_1.
  rewrite E1, l_ham. cbn [lg lg1 lk lk1]. split; auto. pose proof (lb X). field. repeat split; nra.
Qed.
(** the constraints hold to first order in the amplitude *)
Theorem C106_linear : let w := 2 * PI / L in
  Rabs (adm_ham ad) <= 3 * (w * A) ^ 2 /\ Rabs (adm_mom1 ad) <= 3 / 2 * (w * A) ^ 2 /\ adm_mom2 ad = 0 /\ adm_mom3 ad = 0 /\ Rabs (adm_trK ad) <= 4 / 3 * Rabs w * A ^ 2.
Proof.
  cbv zeta. fold (om L). destruct l_mom as (M1 & M2 & M3). pose proof (lb X) as B.
  assert (SC : Rsqr (sin (om L * X + 0)) + Rsqr (cos (om L * X + 0)) = 1) by apply sin2_cos2. unfold Rsqr in SC. set (sn := sin (om L * X + 0)) in *. set (cs := cos (om L * X + 0)) in *.
  assert (D : 3 / 4 <= 1 - bw A L X ^ 2) by nra. assert (B2 : 0 <= bw A L X ^ 2 <= 1 / 4) by nra.
  assert (HB : Rabs (adm_ham ad) <= 3 * (om L * A) ^ 2).
  { rewrite l_ham. set (b := bw A L X) in *.
    assert (E1 : 2 * b * bw2 A L X / (1 - b ^ 2) = - ((om L * A) ^ 2) * (2 * sn ^ 2 / (1 - b ^ 2))) by (replace (2 * b * bw2 A L X) with (- ((om L * A) ^ 2) * (2 * sn ^ 2)) by (unfold b, bw, bw2; fold sn; ring); unfold Rdiv; ring).
    assert (E2 : bw1 A L X ^ 2 = (om L * A) ^ 2 * cs ^ 2) by (unfold bw1; fold cs; ring). rewrite E1, E2. set (q := (om L * A) ^ 2). assert (Q : 0 <= q) by apply pow2_ge_0.
    assert (I1 : 0 <= / (1 - b ^ 2) <= 4 / 3). { split; [left; apply Rinv_0_lt_compat; lra|]. replace (4 / 3) with (/ (3 / 4)) by field. apply Rinv_le_contravar; lra. }
    assert (I2 : 0 <= (1 + b ^ 2) / (1 - b ^ 2) ^ 2 <= 20 / 9). { unfold Rdiv at 1 2. rewrite <- pow_inv. set (i := / (1 - b ^ 2)) in *. assert (0 <= i ^ 2 <= 16 / 9) by nra. split; [apply Rmult_le_pos; lra|]. nra. }
    replace (- q * (2 * sn ^ 2 / (1 - b ^ 2)) + q * cs ^ 2 * (1 + b ^ 2) / (1 - b ^ 2) ^ 2) with (q * (cs ^ 2 * ((1 + b ^ 2) / (1 - b ^ 2) ^ 2) - 2 * sn ^ 2 * / (1 - b ^ 2))) by (field; lra).
    set (i := / (1 - b ^ 2)) in *. set (j := (1 + b ^ 2) / (1 - b ^ 2) ^ 2) in *. rewrite Rabs_mult, (Rabs_pos_eq q Q), Rmult_comm. apply Rmult_le_compat_r; [exact Q|]. apply Rabs_le.
    assert (0 <= sn ^ 2 <= 1) by nra. assert (0 <= cs ^ 2 <= 1) by nra. split; nra. }
  split; [exact HB|]. split; [change (adm_mom1 ad) with (v_mom ad D1); rewrite M1; unfold Rdiv at 1; rewrite Rabs_mult, (Rabs_pos_eq (/ 2)) by lra; lra|]. split; [exact M2|]. split; [exact M3|].
  rewrite (plane_trK (linear_wave A L) lg lg1 lk ad X Y Z 1 F); auto using l_Dp, l_Dg, l_Dk, l_Da, l_0, l_1, l_2, l_k, l_a, l_a1, Rlt_0_1. cbn [lg lk].
  replace (0 / 1 + / 2 * bw1 A L X / (1 + bw A L X) + - / 2 * bw1 A L X / (1 - bw A L X)) with (- (om L * A ^ 2 * (sn * cs * / (1 - bw A L X ^ 2)))).
  2: { unfold bw1. fold cs. set (b := bw A L X) in *. assert (Eb : A * sn = b) by reflexivity. transitivity (- (om L * A * cs * b / (1 - b ^ 2))); [unfold Rdiv; rewrite <- Eb at 2; ring|field; repeat split; nra]. }
  rewrite Rabs_Ropp, !Rabs_mult. rewrite (Rabs_pos_eq (A ^ 2)) by apply pow2_ge_0. rewrite (Rabs_pos_eq (/ _)) by (left; apply Rinv_0_lt_compat; lra).
  assert (I1 : / (1 - bw A L X ^ 2) <= 4 / 3) by (replace (4 / 3) with (/ (3 / 4)) by field; apply Rinv_le_contravar; lra). assert (0 <= / (1 - bw A L X ^ 2)) by (left; apply Rinv_0_lt_compat; lra). set (i := / (1 - bw A L X ^ 2)) in *.
  assert (Rabs sn * Rabs cs <= 1). { rewrite <- Rabs_mult. apply Rabs_le. split; nra. } assert (0 <= Rabs sn * Rabs cs) by (apply Rmult_le_pos; apply Rabs_pos).
  replace (4 / 3 * Rabs (om L) * A ^ 2) with (Rabs (om L) * A ^ 2 * (4 / 3)) by ring. apply Rmult_le_compat_l; [apply Rmult_le_pos; [apply Rabs_pos|apply pow2_ge_0]|]. nra.
Qed.
(** and not to second order *)
Theorem C106_linear_node : X = 0 -> adm_ham ad = (2 * PI / L * A) ^ 2 /\ adm_mom1 ad = (2 * PI / L * A) ^ 2 / 2.
Proof.
  intros E. destruct l_mom as (M1 & _). assert (H : adm_ham ad = (2 * PI / L * A) ^ 2).
  { rewrite l_ham. unfold bw1, bw. rewrite E. replace (om L * 0 + 0) with 0 by ring. rewrite sin_0, cos_0. unfold om. field. auto. }
  split; [exact H|]. change (adm_mom1 ad) with (v_mom ad D1). now rewrite M1, H.
Qed.
End F.
End Lin.
(** ** random noise *)
Theorem C106_noise RM n1 (r : nat -> R) : 0 < RM -> 1 <= n1 -> (forall n, 0 <= r n <= RM) ->
  let u := snd (random_noise RM n1 r) in let b := 25 / 100000000 / n1 ^ 2 in
  (forall i j, Rabs (u (s6 i j) - delta i j) <= b) /\ (forall i j, Rabs (u (6 + s6 i j)%nat) <= b) /\ Rabs (u 12%nat - 1) <= b /\ (forall i, Rabs (u (13 + n3 i)%nat) <= b) /\ positive (sym u).
Proof.
  intros P N H. cbv zeta. set (b := 25 / 100000000 / n1 ^ 2).
  assert (Q : forall n, Rabs (RND RM n1 (r n)) <= b).
  { intros n. destruct (H n) as (H1 & H2). unfold RND, b. replace (25 / 100000000 * 1 * (2 * r n / RM - 1) / (n1 * n1)) with (25 / 100000000 / n1 ^ 2 * (2 * r n / RM - 1)) by (field; lra).
    assert (B0 : 0 < 25 / 100000000 / n1 ^ 2) by (apply Rdiv_lt_0_compat; [lra|apply pow_lt; lra]). rewrite Rabs_mult, (Rabs_pos_eq (25 / 100000000 / n1 ^ 2)) by lra. rewrite <- Rmult_1_r. apply Rmult_le_compat_l; [lra|]. apply Rabs_le.
    assert (0 <= r n / RM <= 1). { split; [apply Rmult_le_pos; [lra|left; now apply Rinv_0_lt_compat]|]. apply (Rmult_le_reg_r RM); [auto|]. unfold Rdiv. rewrite Rmult_assoc, Rinv_l by lra. lra. } unfold Rdiv in *. lra. }
  assert (GD : forall i j, Rabs (snd (random_noise RM n1 r) (s6 i j) - delta i j) <= b).
  { intros i j. unfold random_noise. cbn [snd]. specialize (Q (s6 i j)). destruct i, j; cbn [s6 Nat.ltb Nat.leb delta] in *; (match goal with |- Rabs (?a + ?x - ?a) <= _ => replace (a + x - a) with x by ring end); exact Q. }
  split; [exact GD|]. split; [|split; [|split]].
  - intros i j. unfold random_noise. cbn [snd]. specialize (Q (6 + s6 i j)%nat). destruct i, j; cbn [s6 Nat.add Nat.ltb Nat.leb] in *; rewrite Rplus_0_l; exact Q.
  - unfold random_noise. cbn [snd Nat.ltb Nat.leb]. specialize (Q 12%nat). match goal with |- Rabs (?a + ?x - ?a) <= _ => replace (a + x - a) with x by ring end. exact Q.
  - intros i. unfold random_noise. cbn [snd]. specialize (Q (13 + n3 i)%nat). destruct i; cbn [n3 Nat.add Nat.ltb Nat.leb] in *; rewrite Rplus_0_l; exact Q.
  - assert (B1 : b <= 1 / 10). { unfold b. apply (Rle_trans _ (25 / 100000000 / 1)); [|lra]. unfold Rdiv at 1 3. apply Rmult_le_compat_l; [lra|]. apply Rinv_le_contravar; [lra|]. nra. }
    intros v (k & V). set (u := snd (random_noise RM n1 r)) in *. unfold sym, S3.
    assert (G1 := GD D1 D1). assert (G2 := GD D1 D2). assert (G3 := GD D1 D3). assert (G4 := GD D2 D2). assert (G5 := GD D2 D3). assert (G6 := GD D3 D3). cbn [s6 delta] in *. apply abs_b in G1, G2, G3, G4, G5, G6.
    generalize dependent (u 0%nat). generalize dependent (u 1%nat). generalize dependent (u 2%nat). generalize dependent (u 3%nat). generalize dependent (u 4%nat). generalize dependent (u 5%nat). intros f F e E d D c C b' B a A'.
    assert (SQ : 0 < v D1 ^ 2 + v D2 ^ 2 + v D3 ^ 2). { pose proof (pow2_ge_0 (v D1)). pose proof (pow2_ge_0 (v D2)). pose proof (pow2_ge_0 (v D3)). assert (0 < v k ^ 2) by (rewrite <- Rsqr_pow2; now apply Rlt_0_sqr). destruct k; lra. }
    assert (CR : forall m x y, - b <= m - 0 <= b -> - (1 / 10) * (x ^ 2 + y ^ 2) <= 2 * m * x * y). { intros m x y M. assert (- (1 / 10) <= m <= 1 / 10) by lra. pose proof (pow2_ge_0 (x - y)). pose proof (pow2_ge_0 (x + y)). nra. }
    pose proof (CR _ (v D1) (v D2) B). pose proof (CR _ (v D1) (v D3) C). pose proof (CR _ (v D2) (v D3) E).
    assert (DI : forall m x, - b <= m - 1 <= b -> 9 / 10 * x ^ 2 <= m * x * x) by (intros m x M; pose proof (pow2_ge_0 x); nra).
    pose proof (DI _ (v D1) A'). pose proof (DI _ (v D2) D). pose proof (DI _ (v D3) F). lra.
Qed.
(** ** the driver *)
Theorem C106_driver d lapse shift : det (sym (snd d)) <> 0 -> fst d 0%nat <> 0 ->
  exists u K0 bd, id_driver (Ok d) lapse shift = Ok (fst d, u, K0, bd) /\
    (forall hi, inverse (fun i j => fst d 0%nat ^ 4 * sym (snd d) i j) hi -> K0 = trace hi (sym (fun n => snd d (6 + n)%nat))) /\
    (forall n, (n < 12)%nat -> u n = snd d n) /\ u 12%nat = (if lapse then 1 else snd d 12%nat) /\ (forall i, u (13 + n3 i)%nat = if shift then 0 else snd d (13 + n3 i)%nat) /\
    match bd with Some b => shift = true /\ forall n, b n = 0 | None => shift = false end.
Proof.
  intros N P. unfold id_driver. cbv beta iota. do 3 eexists. split; [reflexivity|]. split; [|split; [|split; [|split]]].
  - intros hi I. now apply (C86_utility (fst d 0%nat) (snd d) (fun n => snd d (6 + n)%nat) N P).
  - intros n L. replace (13 <=? n)%nat with false by (symmetry; apply Nat.leb_gt; lia). replace (n =? 12)%nat with false by (symmetry; apply Nat.eqb_neq; lia). now rewrite !Bool.andb_false_r.
  - destruct lapse, shift; reflexivity.
  - intros i. destruct i, lapse, shift; reflexivity.
  - destruct shift; auto.
Qed.
(** ** cases *)
Example C106_ex_gauge : let A := 1 / 2 in let dat := gauge_wave A 1 in let F := plane_geo dat (gg1 A 1) (sw1 A 1) in let ad := plane_in dat (gg1 A 1) (gg2 A 1) (gk1 A 1) (sw1 A 1) (sw2 A 1) (1 / 8) in
  (forall x, 0 < 1 + wave A 1 0 x) /\ setting ad (1 / 8) 0 0 1 F (gauge_hi A 1) (gauge_dh A 1) /\ adm_ham ad = 0 /\ adm_mom1 ad = 0 /\ snd (dat 0) 6%nat = PI / 2.
Proof.
  cbv zeta. assert (HP : forall x, 0 < 1 + wave (1 / 2) 1 0 x) by (intros x; unfold wave; pose proof (SIN_bound (2 * PI * (x - 0) / 1)); lra). assert (L1 : 1 <> 0) by lra. assert (HQ : forall x, Rabs (x - 1 / 8) < 1 -> 0 < 1 + wave (1 / 2) 1 0 x) by auto.
  set (dat := gauge_wave (1 / 2) 1). set (F := plane_geo dat (gg1 (1 / 2) 1) (sw1 (1 / 2) 1)).
  assert (HF : plane_fields dat F) by (repeat split).
  assert (HD : derivatives_near 1 (1 / 8) 0 0 F) by (eapply (plane_deriv dat (gg (1 / 2) 1) _ (sw (1 / 2) 1)); unfold dat; intros; eauto using g_Dp, g_Dg, g_Da, g_1, d_sw, Rlt_0_1).
  assert (HG : plane_given dat (plane_in dat (gg1 (1 / 2) 1) (gg2 (1 / 2) 1) (gk1 (1 / 2) 1) (sw1 (1 / 2) 1) (sw2 (1 / 2) 1) (1 / 8)) (1 / 8) 0 0 F) by (eapply (plane_ok dat _ _ (gk (1 / 2) 1) _ _ _ (1 / 8) 0 0 1); unfold dat; intros; eauto using g_Dk, g_2, g_k, d_sw1, Rlt_0_1).
  split; [exact HP|]. split; [apply C106_gauge_setting; auto; lra|]. destruct (C106_gauge_constraints (1 / 2) 1 L1 _ (1 / 8) 0 0 1 F Rlt_0_1 HQ HF HD HG) as (E1 & E2 & _). split; [exact E1|]. split; [exact E2|].
  cbn. replace (2 * PI * (0 - 0) / 1) with 0 by field. rewrite sin_0, cos_0. replace (1 + 1 / 2 * 0) with 1 by ring. rewrite sqrt_1. field.
Qed.
Example C106_ex_linear : let A := 1 / 10 in let dat := linear_wave A 1 in let F := plane_geo dat (lg1 A 1) (fun _ => 0) in let ad := plane_in dat (lg1 A 1) (lg2 A 1) (lk1 A 1) (fun _ => 0) (fun _ => 0) 0 in
  Rabs A <= 1 / 2 /\ plane_fields dat F /\ derivatives_near 1 0 0 0 F /\ plane_given dat ad 0 0 0 F /\ adm_ham ad = PI ^ 2 / 25.
Proof.
  cbv zeta. assert (L1 : 1 <> 0) by lra. assert (HA : Rabs (1 / 10) <= 1 / 2) by (rewrite Rabs_pos_eq; lra). set (dat := linear_wave (1 / 10) 1). set (F := plane_geo dat (lg1 (1 / 10) 1) (fun _ => 0)).
  assert (HF : plane_fields dat F) by (repeat split).
  assert (HD : derivatives_near 1 0 0 0 F) by (eapply (plane_deriv dat (lg (1 / 10) 1) _ (fun _ => 1)); unfold dat; intros; eauto using l_Dp, l_Dg, l_Da, l_1, l_a, Rlt_0_1).
  assert (HG : plane_given dat (plane_in dat (lg1 (1 / 10) 1) (lg2 (1 / 10) 1) (lk1 (1 / 10) 1) (fun _ => 0) (fun _ => 0) 0) 0 0 0 F) by (eapply (plane_ok dat _ _ (lk (1 / 10) 1) _ _ _ 0 0 0 1); unfold dat; intros; eauto using l_Dk, l_2, l_k, l_a1, Rlt_0_1).
  repeat (split; [assumption|]). destruct (C106_linear_node (1 / 10) 1 L1 _ 0 0 0 F HA HF HD HG eq_refl) as (E & _). rewrite E. field.
Qed.
Example C106_ex_noise : let u := snd (random_noise 2147483647 5 (fun _ => 2147483647)) in u 0%nat = 1 + 1 / 100000000 /\ positive (sym u).
Proof. cbv zeta. split; [cbn; unfold RND; field|]. apply C106_noise; [lra|lra|]. intros; lra. Qed.
Print Assumptions C106_gauge_flat.
Print Assumptions C106_gauge_slice.
Print Assumptions C106_gauge_constraints.
Print Assumptions C106_gauge_dtrK.
Print Assumptions C106_gauge_default_refuted.
Print Assumptions C106_linear_slice.
Print Assumptions C106_linear.
Print Assumptions C106_linear_node.
Print Assumptions C106_noise.
Print Assumptions C106_driver.
