(** C62: the attenuation functions *)
From Verif Require Import Rutil Atten_model.
Local Open Scope R_scope.
(** *** the logistic form of (1 + tanh)/2 *)
Definition sg (u : R) : R := (1 + tanh u) / 2.
Lemma sg_exp u : sg u = / (1 + exp (- 2 * u)).
Proof.
  unfold sg, tanh, sinh, cosh. replace (-2 * u) with (- u + - u) by ring. rewrite exp_plus. assert (M : exp u * exp (- u) = 1) by (rewrite <- exp_plus, Rplus_opp_r; apply exp_0).
  assert (P1 := exp_pos u). assert (P2 := exp_pos (- u)). set (a := exp u) in *. set (b := exp (- u)) in *. replace (1 + b * b) with (b * (a + b)) by (rewrite <- M; ring). field_simplify_eq; [|split; nra]. nra.
Qed.
Lemma sg_range u : 0 < sg u < 1.
Proof. rewrite sg_exp. assert (P := exp_pos (- 2 * u)). split; [apply Rinv_0_lt_compat; lra|]. rewrite <- Rinv_1. apply Rinv_lt_contravar; lra. Qed.
Lemma sg_incr u v : u < v -> sg u < sg v.
Proof. intros H. rewrite !sg_exp. assert (P := exp_pos (- 2 * u)). assert (P2 := exp_pos (- 2 * v)). assert (exp (- 2 * v) < exp (- 2 * u)) by (apply exp_increasing; lra). apply Rinv_lt_contravar; [nra|lra]. Qed.
Lemma sg_incr_le u v : u <= v -> sg u <= sg v.
Proof. intros [H| ->]; [left; now apply sg_incr|lra]. Qed.
Lemma sg_opp u : sg (- u) = 1 - sg u.
Proof. rewrite !sg_exp. replace (-2 * - u) with (2 * u) by ring. replace (-2 * u) with (- (2 * u)) by ring. rewrite exp_Ropp. assert (P := exp_pos (2 * u)). field. lra. Qed.
Lemma sg_le u : sg u <= exp (2 * u).
Proof. rewrite sg_exp. replace (-2 * u) with (- (2 * u)) by ring. rewrite exp_Ropp. assert (P := exp_pos (2 * u)). replace (/ (1 + / exp (2 * u))) with (exp (2 * u) / (1 + exp (2 * u))) by (field; lra). apply Rmult_le_reg_r with (1 + exp (2 * u)); [lra|]. unfold Rdiv. rewrite Rmult_assoc, Rinv_l by lra. nra. Qed.
Lemma sg_deriv u : derivable_pt_lim sg u (/ (cosh u ^ 2) / 2).
Proof.
  assert (C : cosh u <> 0). { unfold cosh. assert (P1 := exp_pos u). assert (P2 := exp_pos (- u)). lra. }
  assert (S2 : cosh u * cosh u - sinh u * sinh u = 1). { unfold cosh, sinh. assert (M : exp u * exp (- u) = 1) by (rewrite <- exp_plus, Rplus_opp_r; apply exp_0). nra. }
  assert (D := derivable_pt_lim_scal _ (/ 2) _ _ (derivable_pt_lim_plus _ _ _ _ _ (derivable_pt_lim_const 1 u) (derivable_pt_lim_div sinh cosh u _ _ (derivable_pt_lim_sinh u) (derivable_pt_lim_cosh u) C))).
  replace (/ (cosh u ^ 2) / 2) with (/ 2 * (0 + (cosh u * cosh u - sinh u * sinh u) / (cosh u)²)). 2:{ rewrite S2. unfold Rsqr. field. auto. }
  intros e He. destruct (D e He) as [d Hd]. exists d. intros h Hh Hl. specialize (Hd h Hh Hl). unfold sg, tanh. unfold mult_real_fct, plus_fct, fct_cte, div_fct in Hd.
  replace ((1 + sinh (u + h) / cosh (u + h)) / 2 - (1 + sinh u / cosh u) / 2) with (/ 2 * (1 + sinh (u + h) / cosh (u + h)) - / 2 * (1 + sinh u / cosh u)) by lra. exact Hd.
Qed.
Lemma dlim_loc f g x d l : 0 < d -> (forall y, Rabs (y - x) < d -> f y = g y) -> derivable_pt_lim f x l -> derivable_pt_lim g x l.
Proof.
  intros Hd E D e He. destruct (D e He) as [d' H]. assert (Hm : 0 < Rmin d d') by (apply Rmin_pos; [auto|apply cond_pos]). exists (mkposreal _ Hm). intros h Hh Hl. cbn in Hl.
  rewrite <- !E. - apply H; auto. eapply Rlt_le_trans; [exact Hl|apply Rmin_r]. - rewrite Rminus_eq_0, Rabs_R0. auto. - replace (x + h - x) with h by ring. eapply Rlt_le_trans; [exact Hl|apply Rmin_l].
Qed.
Lemma dlim_eq f x l l' : derivable_pt_lim f x l -> l = l' -> derivable_pt_lim f x l'. Proof. now intros H <-. Qed.
(** *** the step in terms of t = tan theta *)
Definition arg (s q t : R) : R := s / PI * (t - q * q / t).
Definition theta (x0 w x : R) : R := (x - x0) * PI / (2 * w).
Lemma theta_range x0 w x : x0 < x < x0 + w -> 0 < theta x0 w x < PI / 2.
Proof.
  intros H. unfold theta. assert (P := PI_RGT_0). split. { apply Rdiv_lt_0_compat; nra. }
  apply Rmult_lt_reg_r with (2 * w); [lra|]. unfold Rdiv. rewrite Rmult_assoc, Rinv_l by lra. nra.
Qed.
Lemma trig_pos th : 0 < th < PI / 2 -> 0 < sin th /\ 0 < cos th /\ 0 < tan th.
Proof. intros H. split; [apply sin_gt_0; lra|]. split; [apply cos_gt_0; lra|apply tan_gt_0; lra]. Qed.
Lemma adiv_ok a b : b <> 0 -> adiv a b = Ok (a / b). Proof. intros H. unfold adiv. destruct (Req_EM_T b 0); [contradiction|auto]. Qed.
Lemma Att_in x x0 w q s : x0 < x < x0 + w -> Att_0to1 x x0 w q s = Ok (sg (arg s q (tan (theta x0 w x)))).
Proof.
  intros H. unfold Att_0to1. destruct (Rle_dec (x0 + w) x); [lra|]. destruct (Rle_dec x x0); [lra|]. rewrite adiv_ok by lra. cbn [rbind]. fold (theta x0 w x).
  destruct (trig_pos _ (theta_range _ _ _ H)) as (S & C & T). rewrite adiv_ok by lra. reflexivity.
Qed.
Lemma Att_hi x x0 w q s : x0 + w <= x -> Att_0to1 x x0 w q s = Ok 1. Proof. intros H. unfold Att_0to1. destruct (Rle_dec (x0 + w) x); [auto|lra]. Qed.
Lemma Att_lo x x0 w q s : x <= x0 -> x < x0 + w -> Att_0to1 x x0 w q s = Ok 0. Proof. intros H G. unfold Att_0to1. destruct (Rle_dec (x0 + w) x); [lra|]. destruct (Rle_dec x x0); [auto|lra]. Qed.
Lemma cosh_pos u : 0 < cosh u. Proof. unfold cosh. assert (P1 := exp_pos u). assert (P2 := exp_pos (- u)). lra. Qed.
Lemma dexpr_in g x x0 w q s : x0 < x < x0 + w -> let t := tan (theta x0 w x) in dAtt_expr g x x0 w q s = Ok (g * (s * ((1 + t * t) * (1 + q * q / (t * t))) / (4 * w * cosh (arg s q t) ^ 2))).
Proof.
  intros H t. unfold dAtt_expr. rewrite adiv_ok by lra. cbn [rbind]. replace (PI * (x - x0) / (2 * w)) with (theta x0 w x) by (unfold theta; field; lra).
  destruct (trig_pos _ (theta_range _ _ _ H)) as (S & C & T). fold t. fold t in T. rewrite !adiv_ok by (unfold t in *; lra). cbn [rbind].
  replace (s * (- (q ^ 2 * (1 / t)) + t) / PI) with (arg s q t). 2:{ unfold arg. field. assert (P := PI_RGT_0). split; lra. } assert (P := cosh_pos (arg s q t)). rewrite !adiv_ok by lra. cbn [rbind]. rewrite adiv_ok by lra. f_equal.
  assert (E : sin (theta x0 w x) = t * cos (theta x0 w x)). { unfold t, tan. field. lra. } assert (SC := sin2_cos2 (theta x0 w x)). unfold Rsqr in SC. rewrite E in SC |- *. set (c := cos (theta x0 w x)) in *. set (k := cosh _) in *.
  replace (q ^ 2 * (1 / (t * c)) ^ 2 + (1 / c) ^ 2) with ((1 + t * t) * (1 + q * q / (t * t))). { field. repeat split; lra. }
  assert (E2 : 1 + t * t = / (c * c)). { apply Rmult_eq_reg_r with (c * c); [|nra]. rewrite Rinv_l by nra. lra. } rewrite E2. field. repeat split; lra.
Qed.
Lemma arg_deriv s q t : t <> 0 -> derivable_pt_lim (arg s q) t (s / PI * (1 + q * q / (t * t))).
Proof.
  intros Ht. assert (PP := PI_RGT_0). assert (D := derivable_pt_lim_scal _ (s / PI) _ _ (derivable_pt_lim_minus _ _ _ _ _ (derivable_pt_lim_id t) (derivable_pt_lim_div (fct_cte (q * q)) id t _ _ (derivable_pt_lim_const (q * q) t) (derivable_pt_lim_id t) Ht))).
  eapply dlim_eq. - eapply (dlim_loc _ (arg s q) t 1); [lra| |exact D]. intros y _. unfold arg, mult_real_fct, minus_fct, id, div_fct, fct_cte. reflexivity.
  - unfold Rsqr, id, fct_cte. field. split; lra.
Qed.
Lemma theta_deriv x0 w x : w <> 0 -> derivable_pt_lim (theta x0 w) x (PI / (2 * w)).
Proof.
  intros Hw. assert (D := derivable_pt_lim_scal _ (PI / (2 * w)) _ _ (derivable_pt_lim_minus _ _ _ _ _ (derivable_pt_lim_id x) (derivable_pt_lim_const x0 x))). eapply dlim_eq. - eapply (dlim_loc _ _ x 1); [lra| |exact D]. intros y _. unfold theta, mult_real_fct, minus_fct, id, fct_cte. field. auto. - ring.
Qed.
Lemma tan_deriv x : - PI / 2 < x < PI / 2 -> derivable_pt_lim tan x (1 + tan x ^ 2).
Proof. intros H. rewrite <- (derive_pt_tan x H). apply derive_pt_eq_1 with (derivable_pt_tan x H). reflexivity. Qed.
Lemma in_deriv x0 w q s x : x0 < x < x0 + w -> let t := tan (theta x0 w x) in derivable_pt_lim (fun y => sg (arg s q (tan (theta x0 w y)))) x (s * ((1 + t * t) * (1 + q * q / (t * t))) / (4 * w * cosh (arg s q t) ^ 2)).
Proof.
  intros H t. destruct (theta_range _ _ _ H) as [R1 R2]. destruct (trig_pos _ (conj R1 R2)) as (_ & _ & T). fold t in T. assert (P := cosh_pos (arg s q t)). assert (PP := PI_RGT_0).
  assert (D1 := derivable_pt_lim_comp _ _ x _ _ (theta_deriv x0 w x ltac:(lra)) (tan_deriv (theta x0 w x) ltac:(lra))).
  assert (D2 := derivable_pt_lim_comp _ _ x _ _ D1 (arg_deriv s q (tan (theta x0 w x)) ltac:(fold t; lra))).
  assert (D3 := derivable_pt_lim_comp _ _ x _ _ D2 (sg_deriv (arg s q (tan (theta x0 w x))))).
  eapply dlim_eq. - eapply (dlim_loc _ _ x 1); [lra| |exact D3]. intros y _. reflexivity. - fold t. field. repeat split; lra.
Qed.
(** near the lower end the step is smaller than every multiple of the distance *)
Lemma end_small s q w : 0 < s -> q <> 0 -> 0 < w -> exists c d, 0 < c /\ 0 < d /\ d < w /\ forall h, 0 < h < d -> sg (arg s q (tan (h * PI / (2 * w)))) <= c * h * h.
Proof.
  intros Hs Hq Hw. assert (PP := PI_RGT_0). assert (Aq := Rabs_pos_lt q Hq). set (k := s * (q * q) * w / (PI * PI)). assert (Hqq : 0 < q * q) by (apply Rsqr_pos_lt in Hq; auto).
  assert (Hk : 0 < k). { unfold k. apply Rdiv_lt_0_compat; [|nra]. apply Rmult_lt_0_compat; [nra|auto]. }
  set (d := Rmin (w / 2) (Rabs q * w / (2 * PI))). assert (Hd1 : d <= w / 2) by apply Rmin_l. assert (Hd2 : d <= Rabs q * w / (2 * PI)) by apply Rmin_r.
  exists (4 / (k * k)), d. split; [apply Rdiv_lt_0_compat; nra|]. split. { apply Rmin_pos; [lra|]. apply Rdiv_lt_0_compat; nra. } split; [lra|]. intros h [H0 Hh]. set (th := h * PI / (2 * w)).
  assert (Hth0 : 0 < th). { apply Rdiv_lt_0_compat; nra. }
  assert (Ew : th * (2 * w) = h * PI) by (unfold th; field; lra).
  assert (Hth1 : th < PI / 3) by nra.
  assert (Hth2 : th <= Rabs q / 4). { assert (h * (2 * PI) <= Rabs q * w). { apply Rle_trans with (Rabs q * w / (2 * PI) * (2 * PI)); [nra|]. right. field. lra. } nra. }
  assert (C2 : / 2 < cos th). { replace (/ 2) with (cos (PI / 3)) by (rewrite cos_PI3; lra). apply cos_decreasing_1; lra. }
  assert (S1 : sin th < th) by now apply sin_lt_x. assert (S0 : 0 < sin th) by (apply sin_gt_0; lra).
  set (t := tan th). assert (Et : t * cos th = sin th) by (unfold t, tan; field; lra). assert (T0 : 0 < t) by nra. assert (T1 : t <= 2 * th) by nra. assert (T2 : t <= Rabs q / 2) by lra.
  assert (T3 : t * t <= q * q / 2). { assert (q * q = Rabs q * Rabs q) by (rewrite <- Rabs_mult; symmetry; apply Rabs_right; lra). nra. }
  assert (A : 2 * arg s q t <= - (k / h)).
  { apply Rle_trans with (- (s / PI * (q * q / t))).
    - unfold arg. assert (s / PI * (2 * t - q * q / t) <= 0). 2:{ lra. } replace (2 * t - q * q / t) with (- ((q * q - 2 * (t * t)) / t)) by (field; lra). assert (0 <= (q * q - 2 * (t * t)) / t). { unfold Rdiv. apply Rmult_le_pos; [lra|]. left. apply Rinv_0_lt_compat. lra. } assert (0 < s / PI) by (apply Rdiv_lt_0_compat; lra). nra.
    - apply Ropp_le_contravar. unfold k. apply Rmult_le_reg_r with (h * t * (PI * PI)). { apply Rmult_lt_0_compat; nra. } replace (s * (q * q) * w / (PI * PI) / h * (h * t * (PI * PI))) with (s * (q * q) * (w * t)) by (field; lra). replace (s / PI * (q * q / t) * (h * t * (PI * PI))) with (s * (q * q) * (h * PI)) by (field; lra).
      apply Rmult_le_compat_l; [nra|]. nra. }
  eapply Rle_trans; [apply sg_le|]. eapply Rle_trans. { destruct A as [A|A]; [left; apply exp_increasing; exact A|right; f_equal; exact A]. }
  set (y := k / h). assert (Hy : 0 < y) by (apply Rdiv_lt_0_compat; lra). rewrite exp_Ropp. assert (E2 : y * y / 4 <= exp y). { replace y with (y / 2 + y / 2) at 3 by field. rewrite exp_plus. assert (1 + y / 2 < exp (y / 2)) by (apply exp_ineq1; lra). nra. }
  replace (4 / (k * k) * h * h) with (/ (y * y / 4)) by (unfold y; field; lra). apply Rinv_le_contravar; [nra|auto].
Qed.
(** *** theorems *)
(** the step is 0 up to x0, 1 from x0+w on, strictly between 0 and 1 inside, for every slope and position; Att_1to0 is its complement *)
Theorem C62_range x x0 w q s : exists v, Att_0to1 x x0 w q s = Ok v /\ Att_1to0 x x0 w q s = Ok (1 - v) /\ 0 <= v <= 1 /\ (x0 + w <= x -> v = 1) /\ (x <= x0 -> x < x0 + w -> v = 0) /\ (x0 < x < x0 + w -> 0 < v < 1).
Proof.
  destruct (Rle_dec (x0 + w) x) as [H|H].
  { exists 1. split; [now apply Att_hi|]. split. { unfold Att_1to0. destruct (Rle_dec (x0 + w) x); [f_equal; lra|lra]. } repeat split; intros; lra. }
  destruct (Rle_dec x x0) as [G|G].
  { exists 0. split; [apply Att_lo; lra|]. split. { unfold Att_1to0. destruct (Rle_dec (x0 + w) x); [lra|]. destruct (Rle_dec x x0); [f_equal; lra|lra]. } repeat split; intros; lra. }
  assert (I : x0 < x < x0 + w) by lra. assert (A := Att_in x x0 w q s I). exists (sg (arg s q (tan (theta x0 w x)))). assert (Rg := sg_range (arg s q (tan (theta x0 w x)))). split; auto. split.
  { unfold Att_1to0. unfold Att_0to1 in A. destruct (Rle_dec (x0 + w) x); [lra|]. destruct (Rle_dec x x0); [lra|]. destruct (adiv _ _) as [th| |]; try discriminate. cbn [rbind] in *. destruct (adiv (q * q) _) as [a| |]; try discriminate. cbn [rbind] in *. inversion A as [A']. now rewrite A'. }
  repeat split; intros; lra.
Qed.
Lemma arg_mono s q t t' : 0 <= s -> 0 < t < t' -> arg s q t <= arg s q t' /\ (0 < s -> arg s q t < arg s q t').
Proof.
  intros Hs Ht. assert (PP := PI_RGT_0). assert (I : / t' < / t) by (apply Rinv_lt_contravar; nra). assert (Q : 0 <= q * q) by nra. assert (L : t - q * q / t < t' - q * q / t') by (unfold Rdiv; nra).
  unfold arg. assert (IP : 0 < / PI) by (apply Rinv_0_lt_compat; lra). split. - apply Rmult_le_compat_l; [|lra]. unfold Rdiv. nra. - intros Hp. apply Rmult_lt_compat_l; [|lra]. unfold Rdiv. nra.
Qed.
(** the step never decreases; with a positive slope it increases strictly on its interval *)
Theorem C62_monotone x y x0 w q s u v : 0 <= s -> x <= y -> Att_0to1 x x0 w q s = Ok u -> Att_0to1 y x0 w q s = Ok v -> u <= v /\ (0 < s -> x0 <= x -> x < y -> y <= x0 + w -> u < v).
Proof.
  intros Hs Hxy Eu Ev. destruct (C62_range x x0 w q s) as (u' & Eu' & _ & Ru & Uhi & Ulo & Uin). rewrite Eu in Eu'. inversion Eu'; subst u'. destruct (C62_range y x0 w q s) as (v' & Ev' & _ & Rv & Vhi & Vlo & Vin). rewrite Ev in Ev'. inversion Ev'; subst v'.
  destruct (Rle_dec (x0 + w) y) as [Hy|Hy]. { rewrite (Vhi Hy). split; [lra|]. intros Hp H1 H2 H3. destruct (Rle_dec x x0) as [Hx|Hx]; [rewrite Ulo; lra|apply Uin; lra]. }
  destruct (Rle_dec x x0) as [Hx|Hx]. { rewrite Ulo by lra. split; [lra|]. intros. apply Vin. lra. }
  assert (Ix : x0 < x < x0 + w) by lra. assert (Iy : x0 < y < x0 + w) by lra. rewrite (Att_in _ _ _ _ _ Ix) in Eu. rewrite (Att_in _ _ _ _ _ Iy) in Ev. inversion Eu. inversion Ev.
  destruct Hxy as [Hlt| ->]; [|split; intros; lra].
  assert (TT : 0 < tan (theta x0 w x) < tan (theta x0 w y)). { assert (A := theta_range _ _ _ Ix). assert (B := theta_range _ _ _ Iy). split; [apply trig_pos; auto|]. apply tan_increasing; try lra. unfold theta, Rdiv. apply Rmult_lt_compat_r; [apply Rinv_0_lt_compat; lra|]. assert (PP := PI_RGT_0). nra. }
  destruct (arg_mono s q _ _ Hs TT) as [M1 M2]. split; [now apply sg_incr_le|]. intros. apply sg_incr. auto.
Qed.
Lemma dlim_flat f x l c d : 0 < d -> 0 < c -> (forall h, Rabs h < d -> Rabs (f (x + h) - l) <= c * h * h) -> derivable_pt_lim f x 0.
Proof.
  intros Hd Hc H e He. assert (Hm : 0 < Rmin d (e / c)) by (apply Rmin_pos; [auto|]; apply Rdiv_lt_0_compat; lra). exists (mkposreal _ Hm). intros h Hh Hl. cbn in Hl.
  assert (E0 : f x = l). { specialize (H 0). rewrite Rabs_R0, Rplus_0_r in H. specialize (H Hd). assert (Z : Rabs (f x - l) <= 0) by lra. assert (P := Rabs_pos (f x - l)). destruct (Req_EM_T (f x - l) 0) as [E|E]; [lra|]. apply Rabs_pos_lt in E. lra. }
  assert (H1 : Rabs h < d) by (eapply Rlt_le_trans; [exact Hl|apply Rmin_l]). assert (H2 : Rabs h < e / c) by (eapply Rlt_le_trans; [exact Hl|apply Rmin_r]). specialize (H h H1). rewrite E0, Rminus_0_r. unfold Rdiv. rewrite Rabs_mult, Rabs_inv.
  assert (P := Rabs_pos_lt h Hh). apply Rmult_lt_reg_r with (Rabs h); auto. rewrite Rmult_assoc, Rinv_l by lra. rewrite Rmult_1_r. eapply Rle_lt_trans; [exact H|]. assert (h * h = Rabs h * Rabs h) by (rewrite <- Rabs_mult; symmetry; apply Rabs_right; nra).
  rewrite Rmult_assoc, H0. assert (c * Rabs h < e). { apply Rlt_le_trans with (c * (e / c)); [nra|]. right. field. lra. } nra.
Qed.
(** the derivative function is the derivative of the step at every point, the two ends included *)
Theorem C62_derivative x0 w q s f : 0 < w -> 0 < s -> q <> 0 -> (forall y, Att_0to1 y x0 w q s = Ok (f y)) -> forall x, exists d, dAtt_0to1 x x0 w q s = Ok d /\ derivable_pt_lim f x d.
Proof.
  intros Hw Hs Hq F x. assert (In : forall y, x0 < y < x0 + w -> f y = sg (arg s q (tan (theta x0 w y)))). { intros y Hy. assert (E := F y). rewrite Att_in in E by auto. now inversion E. }
  assert (Hi : forall y, x0 + w <= y -> f y = 1). { intros y Hy. assert (E := F y). rewrite Att_hi in E by auto. now inversion E. } assert (Lo : forall y, y <= x0 -> f y = 0). { intros y Hy. assert (E := F y). rewrite Att_lo in E by lra. now inversion E. }
  unfold dAtt_0to1. destruct (Rle_dec (x0 + w) x) as [H|H].
  - exists 0. split; auto. destruct H as [H|<-]. { apply (dlim_loc (fct_cte 1) f x (x - (x0 + w))); [lra| |apply derivable_pt_lim_const]. intros y Hy. unfold fct_cte. symmetry. apply Hi. apply Rabs_def2 in Hy. lra. }
    assert (Hqq : 0 < q * q) by (apply Rsqr_pos_lt in Hq; auto). destruct (end_small (s * (q * q)) (/ q) w) as (c & d & Hc & Hd & Hdw & E); auto. { nra. } { now apply Rinv_neq_0_compat. }
    apply (dlim_flat f (x0 + w) 1 c d); auto. intros h Hh. destruct (Rle_dec 0 h) as [P|P]. { rewrite Hi by lra. rewrite Rminus_eq_0, Rabs_R0. nra. }
    apply Rabs_def2 in Hh. rewrite In by lra. assert (PP := PI_RGT_0). assert (Rth := theta_range x0 w (x0 + w + h) ltac:(lra)). replace (theta x0 w (x0 + w + h)) with (PI / 2 - - h * PI / (2 * w)) by (unfold theta; field; lra).
    specialize (E (- h) ltac:(lra)). set (a := - h * PI / (2 * w)) in *. assert (Ea : theta x0 w (x0 + w + h) = PI / 2 - a) by (unfold theta, a; field; lra). rewrite Ea in Rth. assert (Ta := trig_pos a ltac:(lra)).
    assert (Et : tan (PI / 2 - a) = / tan a). { unfold tan. rewrite sin_shift, cos_shift. field. split; lra. } rewrite Et. replace (arg s q (/ tan a)) with (- arg (s * (q * q)) (/ q) (tan a)). 2:{ unfold arg. field. repeat split; lra. } rewrite sg_opp.
    match goal with |- Rabs ?e <= _ => replace e with (- sg (arg (s * (q * q)) (/ q) (tan a))) by ring end. rewrite Rabs_Ropp, Rabs_right by (left; apply sg_range). lra.
  - destruct (Rle_dec x x0) as [G|G].
    + exists 0. split; auto. destruct G as [G| ->]. { apply (dlim_loc (fct_cte 0) f x (x0 - x)); [lra| |apply derivable_pt_lim_const]. intros y Hy. unfold fct_cte. symmetry. apply Lo. apply Rabs_def2 in Hy. lra. }
      destruct (end_small s q w) as (c & d & Hc & Hd & Hdw & E); auto. apply (dlim_flat f x0 0 c d); auto. intros h Hh. destruct (Rle_dec h 0) as [P|P]. { rewrite Lo by lra. rewrite Rminus_eq_0, Rabs_R0. nra. }
      apply Rabs_def2 in Hh. rewrite In by lra. specialize (E h ltac:(lra)). replace (theta x0 w (x0 + h)) with (h * PI / (2 * w)) by (unfold theta; f_equal; ring). rewrite Rminus_0_r, Rabs_right by (left; apply sg_range). exact E.
    + assert (I : x0 < x < x0 + w) by lra. rewrite (dexpr_in 1 x x0 w q s I). eexists. split; [reflexivity|]. rewrite Rmult_1_l. eapply dlim_loc; [|intros y Hy; symmetry; apply In|apply (in_deriv x0 w q s x I)].
      * apply Rmin_pos with (x := x - x0) (y := x0 + w - x); lra. * apply Rabs_def2 in Hy. assert (A := Rmin_l (x - x0) (x0 + w - x)). assert (B := Rmin_r (x - x0) (x0 + w - x)). lra.
Qed.
Theorem C62_derivative_inverted x0 w q s f : 0 < w -> 0 < s -> q <> 0 -> (forall y, Att_1to0 y x0 w q s = Ok (f y)) -> forall x, exists d, dAtt_1to0 x x0 w q s = Ok d /\ derivable_pt_lim f x d.
Proof.
  intros Hw Hs Hq F x. assert (G : forall y, Att_0to1 y x0 w q s = Ok (1 - f y)). { intros y. destruct (C62_range y x0 w q s) as (v & E1 & E2 & _). rewrite F in E2. inversion E2 as [E3]. rewrite E1. f_equal. lra. }
  destruct (C62_derivative x0 w q s (fun y => 1 - f y) Hw Hs Hq G x) as (d & Ed & D). exists (- d). split.
  - unfold dAtt_0to1, dAtt_1to0 in *. destruct (Rle_dec (x0 + w) x); [inversion Ed; rewrite Ropp_0; reflexivity|]. destruct (Rle_dec x x0); [inversion Ed; rewrite Ropp_0; reflexivity|]. rewrite dexpr_in in Ed by lra. rewrite dexpr_in by lra. injection Ed as <-. f_equal. unfold Rdiv. rewrite Rmult_1_l. now rewrite <- Ropp_mult_distr_l, Rmult_1_l.
  - assert (D2 := derivable_pt_lim_minus _ _ _ _ _ (derivable_pt_lim_const 1 x) D). eapply dlim_eq; [|apply Rminus_0_l]. eapply (dlim_loc _ _ x 1); [lra| |exact D2]. intros y _. unfold minus_fct, fct_cte. ring.
Qed.
(** where the step passes 1/2, and how steep it is there *)
Theorem C62_half x0 w q s : 0 < w -> 0 < q -> Att_0to1 (x0 + 2 * w / PI * atan q) x0 w q s = Ok (1 / 2) /\ dAtt_0to1 (x0 + 2 * w / PI * atan q) x0 w q s = Ok (s * (1 + q * q) / (2 * w)).
Proof.
  intros Hw Hq. assert (PP := PI_RGT_0). assert (Ab := atan_bound q). assert (A0 : 0 < atan q) by (rewrite <- atan_0; now apply atan_increasing).
  assert (Eth : theta x0 w (x0 + 2 * w / PI * atan q) = atan q) by (unfold theta; field; lra).
  assert (I : x0 < x0 + 2 * w / PI * atan q < x0 + w). { assert (E2 : 2 * w / PI * atan q = w * (2 * atan q / PI)) by (field; lra). assert (B1 : 0 < 2 * atan q / PI) by (apply Rdiv_lt_0_compat; lra). assert (B2 : 2 * atan q / PI < 1). { apply Rmult_lt_reg_r with PI; [lra|]. unfold Rdiv. rewrite Rmult_assoc, Rinv_l by lra. lra. } rewrite E2. nra. }
  assert (Ar : arg s q q = 0) by (unfold arg; field; lra). assert (T0 : tanh 0 = 0) by (unfold tanh; rewrite sinh_0; unfold Rdiv; ring). split.
  - rewrite Att_in, Eth, tan_atan, Ar by auto. unfold sg. rewrite T0. f_equal. lra.
  - unfold dAtt_0to1. destruct (Rle_dec (x0 + w) _); [lra|]. destruct (Rle_dec _ x0); [lra|]. rewrite dexpr_in by auto. rewrite Eth, tan_atan, Ar, cosh_0. f_equal. field. lra.
Qed.
(** with q = 0 the step is not smooth: it jumps from 0 to more than 1/2 at x0 *)
Theorem C62_q0_jump x x0 w s : 0 < s -> x0 < x < x0 + w -> exists v, Att_0to1 x x0 w 0 s = Ok v /\ 1 / 2 < v /\ Att_0to1 x0 x0 w 0 s = Ok 0.
Proof.
  intros Hs I. assert (PP := PI_RGT_0). eexists. split; [now apply Att_in|]. split; [|apply Att_lo; lra]. destruct (trig_pos _ (theta_range _ _ _ I)) as (_ & _ & T). replace (1 / 2) with (sg 0). 2:{ rewrite sg_exp, Rmult_0_r, exp_0. lra. } apply sg_incr. unfold arg.
  replace (0 * 0 / tan (theta x0 w x)) with 0 by (field; lra). assert (0 < s / PI) by (apply Rdiv_lt_0_compat; lra). nra.
Qed.
(** Attenuation01: 0 up to 0, 1 from 1 on, between 0 and 1 always, 1/2 at p, where its slope is s; never decreasing for s >= 0 *)
Lemma At01_in x s p : 0 < x < 1 -> p <> 0 -> Attenuation01 x s p = Ok (sg (2 * s * p * p * (1 - p) * (- (1) / x + (1 - p) / p / (1 - x)))).
Proof. intros H P. unfold Attenuation01. destruct (Rle_dec x 0); [lra|]. destruct (Rle_dec 1 x); [lra|]. rewrite !adiv_ok by lra. cbn [rbind]. rewrite adiv_ok by lra. cbn [rbind]. f_equal. unfold sg. lra. Qed.
Theorem C62_step01 x s p : p <> 0 -> exists v, Attenuation01 x s p = Ok v /\ 0 <= v <= 1 /\ (x <= 0 -> v = 0) /\ (1 <= x -> v = 1) /\ (0 < x < 1 -> 0 < v < 1).
Proof.
  intros P. destruct (Rle_dec x 0) as [H|H]. { exists 0. split. { unfold Attenuation01. destruct (Rle_dec x 0); [auto|lra]. } repeat split; intros; lra. }
  destruct (Rle_dec 1 x) as [G|G]. { exists 1. split. { unfold Attenuation01. destruct (Rle_dec x 0); [lra|]. destruct (Rle_dec 1 x); [auto|lra]. } repeat split; intros; lra. }
  eexists. split; [apply At01_in; lra|]. match goal with |- context [sg ?u] => assert (Rg := sg_range u) end. repeat split; intros; lra.
Qed.
Theorem C62_step01_monotone x y s p u v : 0 <= s -> 0 < p <= 1 -> x <= y -> Attenuation01 x s p = Ok u -> Attenuation01 y s p = Ok v -> u <= v.
Proof.
  intros Hs Hp Hxy Eu Ev. destruct (C62_step01 x s p) as (u' & Eu' & Ru & U0 & U1 & Ui); [lra|]. rewrite Eu in Eu'. inversion Eu'; subst u'. destruct (C62_step01 y s p) as (v' & Ev' & Rv & V0 & V1 & Vi); [lra|]. rewrite Ev in Ev'. inversion Ev'; subst v'.
  destruct (Rle_dec x 0) as [H|H]. { rewrite U0; lra. } destruct (Rle_dec 1 y) as [G|G]. { rewrite V1; lra. } rewrite At01_in in Eu by lra. rewrite At01_in in Ev by lra. inversion Eu. inversion Ev. apply sg_incr_le.
  apply Rmult_le_compat_l. { repeat apply Rmult_le_pos; lra. } assert (I1 : / y <= / x) by (apply Rinv_le_contravar; lra). assert (I2 : / (1 - x) <= / (1 - y)) by (apply Rinv_le_contravar; lra). unfold Rdiv. assert (0 <= (1 - p) * / p). { apply Rmult_le_pos; [lra|]. left. apply Rinv_0_lt_compat. lra. } nra.
Qed.
Theorem C62_step01_slope s p f : 0 < p < 1 -> (forall y, Attenuation01 y s p = Ok (f y)) -> f p = 1 / 2 /\ derivable_pt_lim f p s.
Proof.
  intros Hp F. assert (In : forall y, 0 < y < 1 -> f y = sg (2 * s * p * p * (1 - p) * (- (1) / y + (1 - p) / p / (1 - y)))). { intros y Hy. assert (E := F y). rewrite At01_in in E by lra. now inversion E. }
  set (u := fun y => 2 * s * p * p * (1 - p) * (- (1) / y + (1 - p) / p / (1 - y))). assert (U0 : u p = 0) by (unfold u; field; lra).
  assert (Du : derivable_pt_lim u p (2 * s)).
  { assert (D := derivable_pt_lim_scal _ (2 * s * p * p * (1 - p)) _ _ (derivable_pt_lim_plus _ _ _ _ _ (derivable_pt_lim_div (fct_cte (- (1))) id p _ _ (derivable_pt_lim_const (- (1)) p) (derivable_pt_lim_id p) ltac:(unfold id; lra))
      (derivable_pt_lim_div (fct_cte ((1 - p) / p)) (fct_cte 1 - id)%F p _ _ (derivable_pt_lim_const ((1 - p) / p) p) (derivable_pt_lim_minus _ _ _ _ _ (derivable_pt_lim_const 1 p) (derivable_pt_lim_id p)) ltac:(unfold minus_fct, fct_cte, id; lra)))).
    eapply dlim_eq; [exact D|]. unfold minus_fct, fct_cte, id, Rsqr. field. lra. }
  split. { rewrite In by auto. fold (u p). rewrite U0, sg_exp, Rmult_0_r, exp_0. lra. }
  assert (D := derivable_pt_lim_comp _ _ p _ _ Du (sg_deriv (u p))). rewrite U0, cosh_0 in D. eapply dlim_eq. - eapply dlim_loc; [|intros y Hy; symmetry; apply In|exact D].
    + apply Rmin_pos with (x := p) (y := 1 - p); lra. + apply Rabs_def2 in Hy. assert (A := Rmin_l p (1 - p)). assert (B := Rmin_r p (1 - p)). lra.
  - field.
Qed.
(** position 0 makes the formula divide by zero *)
Theorem C62_step01_p0 x s : 0 < x < 1 -> Attenuation01 x s 0 = Err.
Proof. intros H. unfold Attenuation01. destruct (Rle_dec x 0); [lra|]. destruct (Rle_dec 1 x); [lra|]. rewrite adiv_ok by lra. cbn [rbind]. unfold adiv. destruct (Req_EM_T 0 0); [reflexivity|lra]. Qed.
(** concrete cases: the recommended q = 1, s = 2 on [0,1], and a function as C62_derivative asks for *)
Example ex_att : Att_0to1 (0 + 2 * 1 / PI * atan 1) 0 1 1 2 = Ok (1 / 2) /\ dAtt_0to1 (0 + 2 * 1 / PI * atan 1) 0 1 1 2 = Ok 2.
Proof. destruct (C62_half 0 1 1 2) as [A B]; try lra. split; auto. rewrite B. f_equal. lra. Qed.
Example ex_fun : forall y, Att_0to1 y 0 1 1 2 = Ok (match Att_0to1 y 0 1 1 2 with Ok v => v | _ => 0 end).
Proof. intros y. destruct (C62_range y 0 1 1 2) as (v & E & _). now rewrite E. Qed.
Print Assumptions C62_range. Print Assumptions C62_monotone. Print Assumptions C62_derivative. Print Assumptions C62_derivative_inverted. Print Assumptions C62_half. Print Assumptions C62_step01_slope.
