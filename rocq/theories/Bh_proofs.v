(** Lemmas on conformally flat metrics and on one over the distance from the origin. *)
From Verif Require Import Rutil Coord_model Coord_spec Adm_model Adm_spec Adm_proofs Adm2_proofs Adm_props.
From Coq Require Import List Lia.
Import ListNotations.
Local Open Scope R_scope.
(** ** a conformally flat metric *)
Section CF.
Variables (a : adm_in) (P : R) (p : d3 -> R) (q : d3 -> d3 -> R).
Hypothesis (PN : P <> 0) (qs : forall k l, q k l = q l k).
Hypothesis Hg : forall i j, v_ginv a i j = delta i j / P ^ 4.
Hypothesis Hd : forall k i j, v_dg a k i j = 4 * P ^ 3 * p k * delta i j.
Hypothesis Hdd : forall k l i j, v_ddg a k l i j = (12 * P ^ 2 * p k * p l + 4 * P ^ 3 * q k l) * delta i j.
Hypothesis HK : forall i j, i_K a i j = 0.
Hypothesis HdK : forall k i j, i_dK a k i j = 0.
Lemma cf_ga i j k : v_ga a i j k = 2 * / P * (delta i j * p k + delta i k * p j - delta j k * p i).
Proof. rewrite ga_i. unfold S3. rewrite !gd_i, !Hg, !Hd. destruct i, j, k; cbn [delta]; field; auto. Qed.
Lemma cf_R : adm_R a = - 8 / P ^ 5 * S3 (fun k => q k k).
Proof.
  assert (E : forall i, v_R a i i = SS (fun c d => v_ginv a c d * (1 / 2 * (v_ddg a i c i d + v_ddg a i c i d - v_ddg a c d i i - v_ddg a i i c d) + S3 (fun e => v_ga a e i c * v_gd a e i d - v_ga a e i i * v_gd a e c d)))) by (intros i; apply R_i; auto).
  transitivity (S3 (fun i => / P ^ 4 * v_R a i i)); [rewrite Rs_i; unfold trace, SS, S3; rewrite !Hg; cbn [delta]; unfold Rdiv; ring|].
  unfold S3 at 1. rewrite !E. unfold SS, S3. rewrite !Hg. cbn [delta]. unfold Rdiv at 2 3 4 6 7 8 10 11 12. rewrite !Rmult_0_l, !Rplus_0_l, !Rplus_0_r.
  rewrite !cf_ga, !gd_i, !Hd, !Hdd. cbn [delta]. rewrite ?(qs D2 D1), ?(qs D3 D1), ?(qs D3 D2). field. auto.
Qed.
Lemma cf_K : adm_K a = 0.
Proof. rewrite K_s. unfold trace, SS, S3. rewrite !HK. ring. Qed.
Lemma cf_KK : adm_KudKud a = 0.
Proof. rewrite KK_s. unfold square, SS, S3. rewrite !HK. ring. Qed.
Lemma cf_cK k i j : v_cK a k i j = 0.
Proof. rewrite cK_i. unfold cov, S3. rewrite !HK, HdK. ring. Qed.
Lemma cf_mom i : v_mom a i = - momrhs a i.
Proof. rewrite mom_i. unfold S3. rewrite !momu_i. unfold SS, S3. rewrite !cKu_i. unfold S3. rewrite !cf_cK. ring. Qed.
Lemma cf_trcdda : adm_trcdda a = / P ^ 4 * S3 (fun k => i_ddalp a k k + 2 * / P * p k * i_dalp a k).
Proof. rewrite trcdda_i. unfold trace, SS, S3. rewrite !Hg, !cdda_i. unfold hessian, S3. rewrite !cf_ga. cbn [delta]. field. auto. Qed.
Lemma cf_bdtrK : adm_betadtrK a = 0.
Proof. rewrite bdtrK_i. unfold S3. rewrite !dtrK_i. unfold trace, SS, S3. rewrite !cf_cK. ring. Qed.
End CF.
(** ** one over the distance *)
Definition co (k : d3) (x y z : R) : R := match k with D1 => x | D2 => y | D3 => z end.
Definition w (x y z : R) : R := / sqrt (x * x + y * y + z * z).
Lemma pd_co k l X Y Z : pd (co k) l X Y Z (delta k l).
Proof. destruct k, l; cbn; try apply derivable_pt_lim_const; apply derivable_pt_lim_id. Qed.
Definition off0 (x y z : R) : Prop := 0 < x * x + y * y + z * z.
Lemma pd_w k X Y Z : off0 X Y Z -> pd w k X Y Z (- co k X Y Z * w X Y Z ^ 3).
Proof.
  intros P. assert (SP : 0 < sqrt (X * X + Y * Y + Z * Z)) by (now apply sqrt_lt_R0). assert (SQ : sqrt (X * X + Y * Y + Z * Z) * sqrt (X * X + Y * Y + Z * Z) = X * X + Y * Y + Z * Z) by (apply sqrt_sqrt; unfold off0 in P; lra).
  assert (G : forall (f : R -> R) t l, 0 < f t -> derivable_pt_lim f t l -> derivable_pt_lim (fun u => sqrt (f u)) t (l / (2 * sqrt (f t)))).
  { clear. intros f t l P D. replace (l / (2 * sqrt (f t))) with (/ (2 * sqrt (f t)) * l) by (unfold Rdiv; ring). apply (derivable_pt_lim_comp f sqrt); auto. now apply derivable_pt_lim_sqrt. }
  assert (PS : pd (fun x y z => sqrt (x * x + y * y + z * z)) k X Y Z (co k X Y Z / sqrt (X * X + Y * Y + Z * Z))).
  { destruct k; cbn [pd co]; match goal with |- derivable_pt_lim _ ?t (?c / ?s) => replace (c / s) with (2 * c / (2 * s)) by (field; lra) end.
    - apply (G (fun t => t * t + Y * Y + Z * Z)); [exact P|]. replace (2 * X) with (1 * X + X * 1 + 0 + 0) by ring. repeat apply derivable_pt_lim_plus; try apply derivable_pt_lim_const. apply derivable_pt_lim_mult; apply derivable_pt_lim_id.
    - apply (G (fun t => X * X + t * t + Z * Z)); [exact P|]. replace (2 * Y) with (0 + (1 * Y + Y * 1) + 0) by ring. repeat apply derivable_pt_lim_plus; try apply derivable_pt_lim_const. apply derivable_pt_lim_mult; apply derivable_pt_lim_id.
    - apply (G (fun t => X * X + Y * Y + t * t)); [exact P|]. replace (2 * Z) with (0 + 0 + (1 * Z + Z * 1)) by ring. repeat apply derivable_pt_lim_plus; try apply derivable_pt_lim_const. apply derivable_pt_lim_mult; apply derivable_pt_lim_id. }
  unfold w. eapply pd_val; [|apply pd_inv; [|exact PS]]; cbv beta; [field|]; lra.
Qed.
(** ** the black hole *)
Definition pf (M : R) : fn3 := fun x y z => 1 + M / 2 * w x y z.
Definition dpf (M : R) (k : d3) : fn3 := fun x y z => - (M / 2) * (co k x y z * w x y z ^ 3).
Definition ddpf (M : R) (k l : d3) : fn3 := fun x y z => M / 2 * (3 * co k x y z * co l x y z * w x y z ^ 5 - delta k l * w x y z ^ 3).
Lemma pd_pf M k X Y Z : off0 X Y Z -> pd (pf M) k X Y Z (dpf M k X Y Z).
Proof. intros O. unfold pf, dpf. eapply pd_val; [|apply pd_plus; [apply pd_const|apply (pd_scal (M / 2) w), pd_w, O]]. ring. Qed.
Lemma pd_dpf M k l X Y Z : off0 X Y Z -> pd (dpf M k) l X Y Z (ddpf M k l X Y Z).
Proof. intros O. unfold dpf, ddpf. eapply pd_val; [|apply (pd_scal (- (M / 2)) (fun x y z => co k x y z * w x y z ^ 3)), (pd_mult (co k) (fun x y z => w x y z ^ 3)); [apply pd_co|apply pd_pow3, pd_w, O]]. ring. Qed.
Lemma w_pos X Y Z : off0 X Y Z -> 0 < w X Y Z.
Proof. intros O. unfold w. apply Rinv_0_lt_compat, sqrt_lt_R0, O. Qed.
Lemma pf_pos M X Y Z : 0 <= M -> off0 X Y Z -> 0 < pf M X Y Z.
Proof. intros HM O. unfold pf. pose proof (w_pos X Y Z O). assert (0 <= M / 2 * w X Y Z) by (apply Rmult_le_pos; lra). lra. Qed.
Lemma dd_sym M k l X Y Z : ddpf M k l X Y Z = ddpf M l k X Y Z.
Proof. unfold ddpf. destruct k, l; cbn [co delta]; ring. Qed.
(** the flat Laplacian of psi vanishes *)
Lemma harmonic M X Y Z : off0 X Y Z -> S3 (fun k => ddpf M k k X Y Z) = 0.
Proof.
  intros O. unfold ddpf, S3. cbn [co delta]. pose proof (w_pos X Y Z O). assert (E : (X * X + Y * Y + Z * Z) * (w X Y Z * w X Y Z) = 1).
  { unfold w. rewrite <- Rinv_mult. rewrite sqrt_sqrt by (unfold off0 in O; lra). apply Rinv_r. unfold off0 in O; lra. }
  replace (M / 2 * (3 * X * X * w X Y Z ^ 5 - 1 * w X Y Z ^ 3) + M / 2 * (3 * Y * Y * w X Y Z ^ 5 - 1 * w X Y Z ^ 3) + M / 2 * (3 * Z * Z * w X Y Z ^ 5 - 1 * w X Y Z ^ 3)) with (3 * (M / 2) * w X Y Z ^ 3 * ((X * X + Y * Y + Z * Z) * (w X Y Z * w X Y Z) - 1)) by ring. rewrite E. ring.
Qed.
Definition af (M : R) : fn3 := fun x y z => 2 * / pf M x y z - 1.
Definition daf (M : R) (k : d3) : fn3 := fun x y z => - 2 * (dpf M k x y z * / pf M x y z ^ 2).
Definition ddaf (M : R) (k l : d3) : fn3 := fun x y z => - 2 * (ddpf M k l x y z / pf M x y z ^ 2 - 2 * dpf M k x y z * dpf M l x y z / pf M x y z ^ 3).
Lemma pd_af M k X Y Z : pf M X Y Z <> 0 -> off0 X Y Z -> pd (af M) k X Y Z (daf M k X Y Z).
Proof. intros N O. unfold af, daf. eapply pd_val; [|apply pd_minus; [apply (pd_scal 2), pd_inv; [exact N|apply pd_pf, O]|apply pd_const]]. field. exact N. Qed.
Lemma pd_pow2' (f : fn3) k X Y Z l : pd f k X Y Z l -> pd (fun x y z => f x y z ^ 2) k X Y Z (2 * f X Y Z * l).
Proof. intros D. eapply pd_val; [|apply (pd_ext (fun x y z => f x y z * f x y z) _ _ _ _ _ _ 1); [lra|intros; cbv beta; ring|apply pd_mult; exact D]]. cbv beta. ring. Qed.
Lemma pd_daf M k l X Y Z : pf M X Y Z <> 0 -> off0 X Y Z -> pd (daf M k) l X Y Z (ddaf M k l X Y Z).
Proof. intros N O. unfold daf, ddaf. eapply pd_val; [|apply (pd_scal (-2)), pd_mult; [apply pd_dpf, O|apply (pd_inv (fun x y z => pf M x y z ^ 2)); [now apply pow_nonzero|apply pd_pow2', pd_pf, O]]]. cbv beta. field. exact N. Qed.
