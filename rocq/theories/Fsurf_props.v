(** C81: surfaces of sphered cubes given by coefficients of spherical harmonics. *)
From Coq Require Import Reals Lra Lia ZArith List Factorial.
From Verif Require Import Base Loops Sparse_model Sparse_proofs Coord_model Ylm_model Ylm_spec Ylm_math Ylm_math2 Ylm_proofs Ylm_props Ser_proofs Ser_props Angle_model Angle_spec Angle_proofs Angle_props Cub_model Cub_spec Cub_proofs Cub_props Cub2_props Cub3_props Fsurf_model.
Open Scope R_scope.

(** ** the sums *)
Lemma add_term_ok m Rc Ic l th ph fv : add_term m ((-1) ^ m) Rc Ic (Yr l m th ph) (Yi l m th ph) fv = fv + wgt m * (Rc * Yr l m th ph - Ic * Yi l m th ph).
Proof.
  unfold add_term, wgt. destruct (Nat.eqb_spec m 0) as [->|N].
  - assert (Yi l 0 th ph = 0) as -> by (unfold Yi; cbn [INR]; rewrite Rmult_0_l, sin_0; ring). ring.
  - replace ((-1) ^ m * Rc * ((-1) ^ m * Yr l m th ph)) with ((-1) ^ m * (-1) ^ m * (Rc * Yr l m th ph)) by ring. replace (- (-1) ^ m * Ic * (- (-1) ^ m * Yi l m th ph)) with ((-1) ^ m * (-1) ^ m * (Ic * Yi l m th ph)) by ring.
    rewrite pow_m1_sq. ring.
Qed.
Lemma tabs_pos A B l m a b : (ind_lm l m < List.length A)%nat -> (ind_lm l m < List.length B)%nat -> nth (ind_lm l m) A 0 = a -> nth (ind_lm l m) B 0 = b -> Ylm_from_Tabs A B l (Z.of_nat m) = Ok (a, b).
Proof.
  intros HA HB <- <-. unfold Ylm_from_Tabs. cbv zeta. replace (Z.to_nat (Z.abs (Z.of_nat m))) with m by lia. rewrite (rd_ok A _ 0), (rd_ok B _ 0) by lia. cbn [rbind].
  destruct (Z.ltb_spec (Z.of_nat m) 0); [lia|reflexivity].
Qed.
(** partial sums: all degrees below l, and the orders below m of degree l *)
Definition below (f : nat -> R) (n : nat) : R := match n with O => 0 | S k => sum_f_R0 f k end.
Lemma below_S f n : below f (S n) = below f n + f n.
Proof. destruct n; cbn [below sum_f_R0]; ring. Qed.
Definition part (c : list R) (th ph : R) (l m : nat) : R := below (fun l => sum_f_R0 (term c th ph l) l) l + below (term c th ph l) m.
Lemma part_row c th ph l : part c th ph l (S l) = part c th ph (S l) 0.
Proof. unfold part. rewrite (below_S (fun l => sum_f_R0 (term c th ph l) l) l). cbn [below]. ring. Qed.
Lemma part_S c th ph l m : part c th ph l (S m) = part c th ph l m + term c th ph l m.
Proof. unfold part. rewrite below_S. ring. Qed.
Lemma rd_skip (co : list R) off i : (off + i < List.length co)%nat -> rd co (off + i) = Ok (nth i (skipn off co) 0).
Proof. intros H. rewrite (rd_ok co _ 0) by lia. f_equal. revert co H. induction off as [|off IH]; intros co H; [reflexivity|]. destruct co; [cbn in H; lia|]. cbn [skipn Nat.add nth]. apply IH. cbn in H. lia. Qed.
Lemma func_ok b co L si A B : (S (entry L L) < List.length co / 4)%nat ->
  FSurf_CubSph_sigma01_func b co L si A B = Ok (series (skipn (if si then (List.length co / 2)%nat else 0%nat) co) L (ThetaOf b A B) (PhiOf b A B)).
Proof.
  intros HN. unfold FSurf_CubSph_sigma01_func. cbv zeta. rewrite entry_ind in HN. assert (TS : tabsize L = S (ind_lm L L)) by (rewrite tabsize_ind, ind_S, (ind_m L L); lia).
  unfold ThetaOf, PhiOf. destruct (ThetaPhi_of_AB_CubSph b A B) as [th ph]. cbn [fst snd]. set (off := if si then _ else _).
  destruct (YlmTabs_ok L th ph (alloc_Plm_Tab L) (alloc_Plm_Tab L)) as (RY & IY & E & L1 & L2 & T); [rewrite C79_alloc, entry_ind; lia..|].
  rewrite E. cbn [rbind]. fold (tabsize L). destruct (Nat.leb_spec (List.length co / 4) (tabsize L)); [lia|].
  set (n := List.length co) in *. pose proof (Nat.div_mod n 4 ltac:(lia)). pose proof (Nat.div_mod n 2 ltac:(lia)). pose proof (Nat.mod_upper_bound n 4 ltac:(lia)). pose proof (Nat.mod_upper_bound n 2 ltac:(lia)).
  assert (HL : (off + 2 * tabsize L < n)%nat) by (unfold off; destruct si; lia).
  match goal with |- context [for_nat 0 (L + 1) ?f (0, off)] => destruct (for_nat_inv (fun l s => s = (part (skipn off co) th ph l 0, (off + 2 * ind_lm l 0)%nat)) f 0 (L + 1) (0, off)) as (s & F & ->) end.
  - lia.
  - unfold part. cbn [below]. f_equal; [ring|cbn; lia].
  - intros l s Hl ->. match goal with |- context [for_nat 0 (l + 1) ?f (?a, 1)] => destruct (for_nat_inv (fun m s => s = (part (skipn off co) th ph l m, (off + 2 * ind_lm l m)%nat, (-1) ^ m)) f 0 (l + 1) (a, 1)) as (s & F & ->) end.
    + lia.
    + reflexivity.
    + intros m s Hm ->. eexists. split; [|reflexivity]. rewrite ?(Nat.add_1_r m). pose proof (ind_bound l m L ltac:(lia) ltac:(lia)). destruct (T l m ltac:(lia)) as [T1 T2].
      rewrite rd_skip by lia. cbn [rbind]. rewrite <- Nat.add_assoc, rd_skip by lia. cbn [rbind]. rewrite (tabs_pos RY IY l m _ _ ltac:(lia) ltac:(lia) T1 T2). cbn [rbind]. rewrite add_term_ok, part_S. unfold term.
      do 2 f_equal; [f_equal; rewrite <- (Nat.add_1_r m), <- ind_next; lia|]. cbn [pow]. ring.
    + rewrite F. cbn [rbind fst]. eexists. split; [reflexivity|]. replace (l + 1)%nat with (S l) by lia. rewrite part_row. f_equal. rewrite ind_S, (ind_m l (S l)). lia.
  - rewrite F. cbn [rbind fst]. replace (L + 1)%nat with (S L) by lia. unfold part. cbn [below]. rewrite Rplus_0_r. reflexivity.
Qed.
Lemma derivs_ok b (co : list R) L (si : bool) A B : let c := skipn (if si then (List.length co / 2)%nat else 0%nat) co in (2 * entry (S L) L + 1 < List.length c)%nat -> ~ (A = 0 /\ B = 0) ->
  exists cs cp, SphHarm_sin_theta_dtheta_forRealFunc c (repeat 0 (tabsize L * 2)) L = Ok cs /\ SphHarm_dphi_forRealFunc c (repeat 0 (tabsize L * 2)) L = Ok cp /\
  forall TA TB PA PB, ThetaPhi_dThetaPhidAB_of_AB_CubSph b A B = (ThetaOf b A B, PhiOf b A B, TA, TB, PA, PB) ->
  FSurf_CubSph_sigma01_derivs b co L si A B = Ok (let fth := series cs L (ThetaOf b A B) (PhiOf b A B) / sin (ThetaOf b A B) in let fp := series cp L (ThetaOf b A B) (PhiOf b A B) in (fth * TA + fp * PA, fth * TB + fp * PB)).
Proof.
  intros c HC NZ. rewrite entry_ind in HC. assert (TS : tabsize L = S (ind_lm L L)) by (rewrite tabsize_ind, ind_S, (ind_m L L); lia).
  assert (LR : List.length (repeat 0%R (tabsize L * 2)) = (tabsize L * 2)%nat) by apply repeat_length.
  destruct (dtheta_ok c (repeat 0 (tabsize L * 2)) L HC ltac:(lia)) as (cs & ES & LS & _). assert (HC' : (2 * tabsize L <= List.length c)%nat) by (rewrite tabsize_ind, (ind_m (S L) L) in *; lia).
  destruct (dphi_ok c (repeat 0 (tabsize L * 2)) L HC' ltac:(lia)) as (cp & EP & LP & _). exists cs, cp. split; auto. split; auto. intros TA TB PA PB ED.
  unfold FSurf_CubSph_sigma01_derivs. cbv zeta. fold (tabsize L). fold c.
  replace (if Req_EM_T A 0 then if Req_EM_T B 0 then 1 / 10000000000 else B else B) with B by (destruct (Req_EM_T A 0); [destruct (Req_EM_T B 0); [tauto|]|]; reflexivity).
  rewrite ED. set (th := ThetaOf b A B). set (ph := PhiOf b A B).
  destruct (YlmTabs_ok L th ph (alloc_Plm_Tab L) (alloc_Plm_Tab L)) as (RY & IY & E & L1 & L2 & T); [rewrite C79_alloc, entry_ind; lia..|].
  rewrite E. cbn [rbind]. rewrite ES. cbn [rbind]. rewrite EP. cbn [rbind].
  match goal with |- context [for_nat 0 (L + 1) ?f (0, 0, 0%nat)] => destruct (for_nat_inv (fun l s => s = (part cs th ph l 0, part cp th ph l 0, (2 * ind_lm l 0)%nat)) f 0 (L + 1) (0, 0, 0%nat)) as (s & F & ->) end.
  - lia.
  - unfold part. cbn [below]. repeat f_equal; ring.
  - intros l s Hl ->. match goal with |- context [for_nat 0 (l + 1) ?f (?a, 1)] => destruct (for_nat_inv (fun m s => s = (part cs th ph l m, part cp th ph l m, (2 * ind_lm l m)%nat, (-1) ^ m)) f 0 (l + 1) (a, 1)) as (s & F & ->) end.
    + lia.
    + reflexivity.
    + intros m s Hm ->. eexists. split; [|reflexivity]. rewrite ?(Nat.add_1_r m). pose proof (ind_bound l m L ltac:(lia) ltac:(lia)). destruct (T l m ltac:(lia)) as [T1 T2].
      rewrite !(rd_ok cs _ 0), !(rd_ok cp _ 0) by lia. cbn [rbind]. rewrite (tabs_pos RY IY l m _ _ ltac:(lia) ltac:(lia) T1 T2). cbn [rbind]. rewrite !add_term_ok, !part_S. unfold term.
      do 2 f_equal; [f_equal; rewrite <- (Nat.add_1_r m), <- ind_next; lia|]. cbn [pow]. ring.
    + rewrite F. cbn [rbind fst]. eexists. split; [reflexivity|]. replace (l + 1)%nat with (S l) by lia. rewrite !part_row. f_equal. rewrite ind_S, (ind_m l (S l)). lia.
  - rewrite F. cbn [rbind fst]. replace (L + 1)%nat with (S L) by lia. unfold part. cbn [below]. rewrite !Rplus_0_r. reflexivity.
Qed.

(** ** the value depends on the direction only *)
Lemma cos_sin_m a b m : cos a = cos b -> sin a = sin b -> cos (INR m * a) = cos (INR m * b) /\ sin (INR m * a) = sin (INR m * b).
Proof.
  intros C S. induction m as [|m [IC IS]]; [cbn [INR]; rewrite !Rmult_0_l; auto|]. rewrite S_INR, !Rmult_plus_distr_r, !Rmult_1_l, !cos_plus, !sin_plus, IC, IS, C, S. auto.
Qed.
Lemma PL_pole l m x : x ^ 2 = 1 -> (0 < m)%nat -> PL l m x = 0.
Proof. intros E H. unfold PL. rewrite E. replace (1 - 1) with 0 by ring. rewrite sqrt_0, pow_i by auto. ring. Qed.
Lemma series_dir c L th ph th' ph' : cos th = cos th' -> (sin th <> 0 -> cos ph = cos ph' /\ sin ph = sin ph') -> series c L th ph = series c L th' ph'.
Proof.
  intros C H. unfold series. apply sum_eq. intros l _. apply sum_eq. intros m _. unfold term, Yr, Yi. rewrite <- C.
  destruct (Req_dec (sin th) 0) as [Z|Z].
  - destruct m as [|m]; [cbn [INR]; rewrite !Rmult_0_l; reflexivity|]. rewrite PL_pole by (lia || (pose proof (sin2_cos2 th) as Q; unfold Rsqr in Q; rewrite Z in Q; lra)). ring.
  - destruct (H Z) as [C1 S1]. destruct (cos_sin_m ph ph' m C1 S1) as [-> ->]. reflexivity.
Qed.
Lemma direction_angles v th ph th' ph' : 0 <= th <= PI -> 0 <= th' <= PI -> spherical_angles v th ph -> spherical_angles v th' ph' -> th = th' /\ (sin th <> 0 -> cos ph = cos ph' /\ sin ph = sin ph').
Proof.
  intros T T' (r & P & X & Y & Z) (r' & P' & X' & Y' & Z').
  assert (N : forall t p q, q * q = (q * sin t * cos p) * (q * sin t * cos p) + (q * sin t * sin p) * (q * sin t * sin p) + (q * cos t) * (q * cos t)).
  { intros t p q. pose proof (sin2_cos2 t) as A. pose proof (sin2_cos2 p) as B. unfold Rsqr in *. transitivity (q * q * (sin t * sin t * (sin p * sin p + cos p * cos p) + cos t * cos t)); [rewrite B, Rmult_1_r, A; ring|ring]. }
  assert (r = r'). { pose proof (N th ph r) as A. rewrite <- X, <- Y, <- Z, X', Y', Z', <- N in A. nra. } subst r'.
  assert (C : cos th = cos th') by (apply (Rmult_eq_reg_l r); [congruence|lra]). assert (th = th') by (apply cos_inj; auto). subst th'. split; auto. intros S. assert (r * sin th <> 0) by (apply Rmult_integral_contrapositive; split; lra).
  split; apply (Rmult_eq_reg_l (r * sin th)); auto; congruence.
Qed.
(** C81: FSurf_CubSph_sigma01_func returns the sum of the series, with the coefficients of the wanted side, at the spherical angles of the direction (A,B), and refuses coefficient arrays that are too short *)
Theorem C81_value b co L (si : bool) A B : (dom (ci b) < 6)%nat -> (S (entry L L) < List.length co / 4)%nat ->
  exists v, FSurf_CubSph_sigma01_func b co L si A B = Ok v /\
    forall th ph, 0 <= th <= PI -> spherical_angles (ray (dom (ci b)) A B) th ph -> is_series (skipn (if si then List.length co / 2 else 0)%nat co) L th ph v.
Proof.
  intros D HN. eexists. split; [now apply func_ok|]. intros th ph Ht Ha. apply series_ok. pose proof (C75_angles b A B D) as Q. unfold ThetaOf, PhiOf. destruct (ThetaPhi_of_AB_CubSph b A B) as [th' ph']. cbn [fst snd]. destruct Q as (R1 & _ & Q).
  destruct (direction_angles _ _ _ _ _ R1 Ht Q Ha) as [-> H]. now apply series_dir.
Qed.
Theorem C81_refused b co L si A B : (List.length co / 4 <= S (entry L L))%nat -> FSurf_CubSph_sigma01_func b co L si A B = Err.
Proof.
  intros HN. unfold FSurf_CubSph_sigma01_func. cbv zeta. rewrite entry_ind in HN. assert (TS : tabsize L = S (ind_lm L L)) by (rewrite tabsize_ind, ind_S, (ind_m L L); lia).
  destruct (ThetaPhi_of_AB_CubSph b A B) as [th ph]. destruct (YlmTabs_ok L th ph (alloc_Plm_Tab L) (alloc_Plm_Tab L)) as (RY & IY & E & _); [rewrite C79_alloc, entry_ind; lia..|].
  rewrite E. cbn [rbind]. fold (tabsize L). destruct (Nat.leb_spec (List.length co / 4) (tabsize L)); [reflexivity|lia].
Qed.
Print Assumptions C81_value.
Print Assumptions C81_refused.

(** ** derivatives *)
Lemma Yr_T' l m th ph : 0 <= th <= PI -> Yr l m th ph = Tlm l m th * cos (INR m * ph) /\ Yi l m th ph = Tlm l m th * sin (INR m * ph).
Proof.
  intros H. assert (S : sqrt (1 - cos th ^ 2) = sin th). { replace (1 - cos th ^ 2) with (Rsqr (sin th)). 2:{ rewrite sin2. unfold Rsqr. ring. } apply sqrt_Rsqr. now apply sin_ge_0. }
  unfold Yr, Yi, Tlm, Fth, PL. rewrite S. change (nrm l m) with (fac_of l m). split; ring.
Qed.
Lemma series_T c L th ph : 0 <= th <= PI -> series c L th ph = sum_f_R0 (fun l => sum_f_R0 (fun m => wgt m * (cph c ph l m * Tlm l m th)) l) L.
Proof. intros H. unfold series. apply sum_eq. intros l _. apply sum_eq. intros m _. unfold term, cph, cf. destruct (Yr_T' l m th ph H) as [-> ->]. rewrite Nat.add_0_r. ring. Qed.
Lemma cph_d c l m x v v' : derivable_pt_lim v x v' -> derivable_pt_lim (fun t => cph c (v t) l m) x ((- cf c 0 l m * sin (INR m * v x) - cf c 1 l m * cos (INR m * v x)) * INR m * v').
Proof.
  intros H. assert (DL : derivable_pt_lim (fun t => INR m * v t) x (INR m * v')) by (apply (derivable_pt_lim_scal v); exact H). unfold cph.
  replace ((- cf c 0 l m * sin (INR m * v x) - cf c 1 l m * cos (INR m * v x)) * INR m * v') with (cf c 0 l m * (- sin (INR m * v x) * (INR m * v')) - cf c 1 l m * (cos (INR m * v x) * (INR m * v'))) by ring.
  apply (derivable_pt_lim_minus (fun t => cf c 0 l m * cos (INR m * v t)) (fun t => cf c 1 l m * sin (INR m * v t))).
  - apply (derivable_pt_lim_scal (fun t => cos (INR m * v t))). apply (derivable_pt_lim_comp (fun t => INR m * v t) cos); [exact DL|apply derivable_pt_lim_cos].
  - apply (derivable_pt_lim_scal (fun t => sin (INR m * v t))). apply (derivable_pt_lim_comp (fun t => INR m * v t) sin); [exact DL|apply derivable_pt_lim_sin].
Qed.
Lemma Tlm_all th : 0 < th < PI -> exists D, forall l m, (m <= l)%nat -> derivable_pt_lim (Tlm l m) th (D l m).
Proof.
  intros Ht. exists (fun l m => (INR l * sqrt (ee (S l) m) * Tlm (S l) m th - (INR l + 1) * sqrt (ee l m) * (if Nat.ltb m l then Tlm (l - 1) m th else 0)) / sin th).
  intros l m Hm. pose proof (sin_gt_0 th (proj1 Ht) (proj2 Ht)). destruct (Tlm_derive l m th Hm) as (d & A & B). rewrite <- B. replace (sin th * d / sin th) with d by (field; lra). exact A.
Qed.
(** the total derivative of the series *)
Lemma series_total c L th ph : 0 < th < PI -> exists dt dp, derivable_pt_lim (fun t => series c L t ph) th dt /\ derivable_pt_lim (series c L th) ph dp /\
  forall u v x u' v', u x = th -> v x = ph -> (forall t, 0 <= u t <= PI) -> derivable_pt_lim u x u' -> derivable_pt_lim v x v' -> derivable_pt_lim (fun t => series c L (u t) (v t)) x (dt * u' + dp * v').
Proof.
  intros Ht. destruct (Tlm_all th Ht) as (D & HD).
  set (dt := sum_f_R0 (fun l => sum_f_R0 (fun m => wgt m * (cph c ph l m * D l m)) l) L).
  set (dp := sum_f_R0 (fun l => sum_f_R0 (fun m => wgt m * ((- cf c 0 l m * sin (INR m * ph) - cf c 1 l m * cos (INR m * ph)) * INR m * Tlm l m th)) l) L). exists dt, dp.
  assert (G : forall u v x u' v', u x = th -> v x = ph -> derivable_pt_lim u x u' -> derivable_pt_lim v x v' ->
    derivable_pt_lim (fun t => sum_f_R0 (fun l => sum_f_R0 (fun m => wgt m * (cph c (v t) l m * Tlm l m (u t))) l) L) x (dt * u' + dp * v')).
  { intros u v x u' v' Hu Hv Du Dv.
    replace (dt * u' + dp * v') with (sum_f_R0 (fun l => sum_f_R0 (fun m => wgt m * (((- cf c 0 l m * sin (INR m * ph) - cf c 1 l m * cos (INR m * ph)) * INR m * v') * Tlm l m th + cph c ph l m * (D l m * u'))) l) L).
    2:{ unfold dt, dp. rewrite (Rmult_comm _ u'), (Rmult_comm _ v'), !scal_sum, <- plus_sum. apply sum_eq. intros l _. rewrite (Rmult_comm _ u'), (Rmult_comm _ v'), !scal_sum, <- plus_sum. apply sum_eq. intros m _. ring. }
    apply (dsum (fun l t => sum_f_R0 (fun m => wgt m * (cph c (v t) l m * Tlm l m (u t))) l)). intros l Hl. apply (dsum (fun m t => wgt m * (cph c (v t) l m * Tlm l m (u t)))). intros m Hm.
    apply (derivable_pt_lim_scal (fun t => cph c (v t) l m * Tlm l m (u t))). subst th ph. apply (derivable_pt_lim_mult (fun t => cph c (v t) l m) (fun t => Tlm l m (u t))); [apply cph_d; auto|].
    apply (derivable_pt_lim_comp u (Tlm l m)); [exact Du|]. apply HD. lia. }
  split; [|split].
  - pose proof (Rmin_glb_lt th (PI - th) 0 ltac:(lra) ltac:(lra)) as P.
    apply (dlim_loc (fun t => sum_f_R0 (fun l => sum_f_R0 (fun m => wgt m * (cph c ph l m * Tlm l m t)) l) L) _ th _ _ P).
    { intros t Htt. symmetry. apply series_T. pose proof (Rmin_l th (PI - th)). pose proof (Rmin_r th (PI - th)). apply Rabs_def2 in Htt. lra. }
    replace dt with (dt * 1 + dp * 0) by ring. apply (G (fun t => t) (fun _ => ph)); auto; [apply derivable_pt_lim_id|apply derivable_pt_lim_const].
  - apply (dlim_ext (fun t => sum_f_R0 (fun l => sum_f_R0 (fun m => wgt m * (cph c t l m * Tlm l m th)) l) L)). { intros t. symmetry. apply series_T. lra. }
    replace dp with (dt * 0 + dp * 1) by ring. apply (G (fun _ => th) (fun t => t)); auto; [apply derivable_pt_lim_const|apply derivable_pt_lim_id].
  - intros u v x u' v' Hu Hv Ru Du Dv. apply (dlim_ext (fun t => sum_f_R0 (fun l => sum_f_R0 (fun m => wgt m * (cph c (v t) l m * Tlm l m (u t))) l) L)). { intros t. symmetry. now apply series_T. } now apply G.
Qed.
(** the angle with the same direction that is smooth where PhiOf jumps *)
Lemma Phi_smooth b A B TA TB PA PB : (dom (ci b) < 6)%nat -> ~ at_pole b A B -> ThetaPhi_dThetaPhidAB_of_AB_CubSph b A B = (ThetaOf b A B, PhiOf b A B, TA, TB, PA, PB) ->
  exists v, v A = PhiOf b A B /\ derivable_pt_lim v A PA /\ forall t, sin (ThetaOf b t B) <> 0 -> cos (v t) = cos (PhiOf b t B) /\ sin (v t) = sin (PhiOf b t B).
Proof.
  intros D NP E. destruct (C75_angle_derivs b A B D) as (TA' & TB' & PA' & PB' & E' & H). rewrite E in E'. injection E' as -> -> -> ->. destruct (H NP) as (_ & _ & _ & HP).
  assert (DC : at_cut b A B \/ ~ at_cut b A B). { unfold at_cut. destruct (Req_dec (ray (dom (ci b)) A B D2) 0); destruct (Rlt_dec 0 (ray (dom (ci b)) A B D1)); tauto. }
  destruct DC as [C|NC]. 2:{ exists (fun t => PhiOf b t B). auto. } clear HP H.
  assert (K : forall X s, 0 < X -> s * s = 1 -> PhiOf b A B = Arg_plus X (s * A) -> s * A = 0 -> PA' = dArgdy X (s * A) * s -> (forall t, PhiOf b t B = Arg_plus X (s * t)) ->
     exists v, v A = PhiOf b A B /\ derivable_pt_lim v A PA' /\ forall t, sin (ThetaOf b t B) <> 0 -> cos (v t) = cos (PhiOf b t B) /\ sin (v t) = sin (PhiOf b t B)).
  { intros X s PX SS E1 Z E2 E3. exists (fun t => Arg X (s * t)). assert (NX : forall y, X <> 0 \/ y <> 0) by (intros; left; lra). split; [|split].
    - rewrite E1, Z. unfold Arg, Arg_plus. destruct (Req_EM_T X 0); [lra|]. destruct (Rlt_dec X 0); [lra|]. unfold Rdiv. rewrite Rmult_0_l, atan_0. destruct (Rlt_dec 0 0); lra.
    - rewrite E2. apply (comp_d (fun u => Arg X u) (fun t => s * t)); [apply lin_d|]. apply (C68_arg_first X (s * A) (NX _)). right. exact PX.
    - intros t _. rewrite E3. destruct (C68_arg X (s * t) (NX _)) as ((r & P1 & X1 & Y1) & _ & _ & (r' & P2 & X2 & Y2) & _ & _).
      set (a := Arg X (s * t)) in *. set (a' := Arg_plus X (s * t)) in *. clearbody a a'. pose proof (sin2_cos2 a) as Q1. pose proof (sin2_cos2 a') as Q2. unfold Rsqr in *.
      assert (r = r'). { assert (r * r = r' * r'); [|nra]. transitivity (X * X + s * t * (s * t)). - rewrite X1 at 1 2. rewrite Y1. transitivity (r * r * (sin a * sin a + cos a * cos a)); [rewrite Q1; ring|ring]. - rewrite X2 at 1 2. rewrite Y2. transitivity (r' * r' * (sin a' * sin a' + cos a' * cos a')); [ring|rewrite Q2; ring]. }
      subst r'. split; apply (Rmult_eq_reg_l r); lra. }
  unfold ThetaPhi_dThetaPhidAB_of_AB_CubSph in E. destruct C as [C1 C2]. unfold at_pole in NP. assert (SS : sgn (dom (ci b)) * sgn (dom (ci b)) = 1) by (destruct (sgn_or (dom (ci b))) as [-> | ->]; ring).
  assert (EP : forall t, PhiOf b t B = if Nat.eqb (cdir b) 1 then Arg_plus (sgn (dom (ci b))) (sgn (dom (ci b)) * t) else if Nat.eqb (cdir b) 2 then Arg_plus (sgn (dom (ci b)) * t) (sgn (dom (ci b))) else Arg_plus (sgn (dom (ci b)) * B) (sgn (dom (ci b)) * t)).
  { intros t. unfold PhiOf, ThetaPhi_of_AB_CubSph. rewrite (pm_sgn b D). destruct (Nat.eqb (cdir b) 1); [reflexivity|]. destruct (Nat.eqb (cdir b) 2); reflexivity. }
  rewrite (pm_sgn b D) in E. pose proof (cdir_axis b D) as DA. unfold ray in C1, C2. set (s := sgn (dom (ci b))) in *.
  assert (SN : s <> 0) by (intros Q; rewrite Q in SS; lra).
  destruct (axis (dom (ci b))) eqn:AX; rewrite DA in E, EP; cbn [Nat.eqb] in E, EP; injection E as _ _ _ _ E5 _.
  - apply (K s s); auto. lra.
  - exfalso. lra.
  - apply (K (s * B) s); auto. rewrite <- E5. rewrite C1. assert (A0 : A = 0) by (apply (Rmult_eq_reg_l s); lra). rewrite A0. unfold Arg_plus. destruct (Req_EM_T (s * B) 0); [lra|]. destruct (Rlt_dec (s * B) 0); [lra|]. unfold Rdiv. rewrite Rmult_0_l, atan_0. destruct (Rlt_dec 0 0); [lra|]. rewrite cos_0.
    assert (BB : B * B = s * B * (s * B)) by (transitivity (s * s * (B * B)); [rewrite SS; ring|ring]). replace (sqrt (0 * 0 + B * B)) with (s * B). 2:{ rewrite Rmult_0_l, Rplus_0_l, BB. symmetry. apply sqrt_Rsqr. lra. }
    destruct (Req_EM_T (s * B) 0); [lra|]. unfold dArgdy. assert (B <> 0) by (intros ->; lra). field. repeat split; auto.
Qed.
Lemma theta_in b A B : (dom (ci b) < 6)%nat -> 0 <= ThetaOf b A B <= PI /\ (~ at_pole b A B -> 0 < ThetaOf b A B < PI).
Proof.
  intros D. pose proof (C75_angles b A B D) as Q. unfold ThetaOf. destruct (ThetaPhi_of_AB_CubSph b A B) as [th ph]. cbn [fst]. destruct Q as (T & _ & (r & P & X & Y & Z)). split; auto. intros NP.
  assert (S : sin th <> 0). { intros S. rewrite S in X, Y. apply NP. unfold at_pole, ray in *. destruct (sgn_or (dom (ci b))) as [Q|Q]; rewrite Q in *; destruct (axis (dom (ci b))); repeat split; try lra; auto. }
  split; apply Rnot_le_lt; intros H; apply S; [replace th with 0 by lra; apply sin_0|replace th with PI by lra; apply sin_PI].
Qed.
(** what the code returns, and what the derivatives are *)
Lemma derivs_error b (co : list R) L (si : bool) A B : let c := skipn (if si then (List.length co / 2)%nat else 0%nat) co in
  (dom (ci b) < 6)%nat -> (2 * entry (S L) L + 1 < List.length c)%nat -> ~ (A = 0 /\ B = 0) ->
  exists dA dB eA eB, FSurf_CubSph_sigma01_derivs b co L si A B = Ok (dA, dB) /\
    derivable_pt_lim (fun t => series c L (ThetaOf b t B) (PhiOf b t B)) A eA /\ derivable_pt_lim (fun t => series c L (ThetaOf b A t) (PhiOf b A t)) B eB /\
    exists TA TB PA PB, ThetaPhi_dThetaPhidAB_of_AB_CubSph b A B = (ThetaOf b A B, PhiOf b A B, TA, TB, PA, PB) /\
      eA = dA + missing c L (ThetaOf b A B) (PhiOf b A B) / sin (ThetaOf b A B) * TA /\ eB = dB + missing c L (ThetaOf b A B) (PhiOf b A B) / sin (ThetaOf b A B) * TB.
Proof.
  intros c D HC NZ. assert (NP : ~ at_pole b A B) by (unfold at_pole; tauto). destruct (derivs_ok b co L si A B HC NZ) as (cs & cp & ES & EP & E). fold c in ES, EP.
  destruct (C75_angle_derivs b A B D) as (TA & TB & PA & PB & EA & HA). specialize (E _ _ _ _ EA). destruct (HA NP) as (DTA & DTB & DPB & _). destruct (Phi_smooth b A B _ _ _ _ D NP EA) as (v & V0 & DV & V).
  set (th := ThetaOf b A B) in *. set (ph := PhiOf b A B) in *. destruct (proj2 (theta_in b A B D) NP) as [T0 T1]. fold th in T0, T1.
  pose proof (sin_gt_0 th T0 T1) as SP. rewrite entry_ind in HC.
  assert (TS : tabsize L = S (ind_lm L L)) by (rewrite tabsize_ind, ind_S, (ind_m L L); lia). assert (LR : List.length (repeat 0%R (tabsize L * 2)) = (tabsize L * 2)%nat) by apply repeat_length.
  destruct (series_total c L th ph (conj T0 T1)) as (dt & dp & Dt & Dp & G).
  destruct (dtheta_error c (repeat 0 (tabsize L * 2)) cs L HC ltac:(lia) ES th ph (conj T0 T1)) as (d & Dd & Qd). assert (d = dt) by (eapply uniqueness_limite; eauto). subst d.
  assert (dp = series cp L th ph). { destruct (C80_dphi c (repeat 0 (tabsize L * 2)) L) as (cp' & EP' & _ & H); [rewrite !entry_ind; rewrite ?(ind_m (S L) L), ?ind_S, ?(ind_m L L) in *; lia|rewrite entry_ind; lia|].
    rewrite EP in EP'. injection EP' as <-. eapply uniqueness_limite; [exact Dp|]. apply (H th ph (series c L th)); [intros; now apply series_ok|now apply series_ok]. }
  subst dp. cbv zeta in E. set (fth := series cs L th ph / sin th) in *. exists (fth * TA + series cp L th ph * PA), (fth * TB + series cp L th ph * PB), (dt * TA + series cp L th ph * PA), (dt * TB + series cp L th ph * PB).
  split; auto. split; [|split].
  - apply (dlim_ext (fun t => series c L (ThetaOf b t B) (v t))). { intros t. apply series_dir; auto. } apply G; auto. intros t. apply theta_in; auto.
  - apply G; auto. intros t. apply theta_in; auto.
  - exists TA, TB, PA, PB. split; auto. assert (dt = fth + missing c L th ph / sin th) as ->. { unfold fth. apply (Rmult_eq_reg_l (sin th)); [|lra]. rewrite Qd. field. lra. } split; ring.
Qed.
(** C81, full claim: FSurf_CubSph_sigma01_derivs returns the derivatives of the function with respect to A and B.  It fails, as C80 does. *)
Definition C81_claim (b : cbox) (co : list R) (L : nat) (si : bool) (A B : R) : Prop :=
  exists f dA dB, (forall A B, FSurf_CubSph_sigma01_func b co L si A B = Ok (f A B)) /\ FSurf_CubSph_sigma01_derivs b co L si A B = Ok (dA, dB) /\
    derivable_pt_lim (fun t => f t B) A dA /\ derivable_pt_lim (f A) B dB.
(** it holds if the coefficients of degree L and the L+1 pairs the code reads after them vanish, except at A = B = 0 *)
Theorem C81_derivs_partial b (co : list R) L (si : bool) A B : let c := skipn (if si then List.length co / 2 else 0)%nat co in
  (dom (ci b) < 6)%nat -> (S (entry L L) < List.length co / 4)%nat -> (2 * entry (S L) L + 1 < List.length c)%nat -> ~ (A = 0 /\ B = 0) ->
  (forall m, (m <= L)%nat -> nth (2 * entry L m) c 0 = 0 /\ nth (2 * entry L m + 1) c 0 = 0 /\ nth (2 * entry (S L) m) c 0 = 0 /\ nth (2 * entry (S L) m + 1) c 0 = 0) ->
  C81_claim b co L si A B.
Proof.
  intros c D HN HC NZ H. destruct (derivs_error b co L si A B D HC NZ) as (dA & dB & eA & eB & E & DA & DB & TA & TB & PA & PB & _ & QA & QB).
  assert (M : missing c L (ThetaOf b A B) (PhiOf b A B) = 0).
  { unfold missing. rewrite (sum_eq _ (fun _ => 0)). { rewrite sum_cte. ring. } intros m Hm. destruct (H m Hm) as (H1 & H2 & H3 & H4). rewrite !entry_ind in *. unfold cph, cf. rewrite !Nat.add_0_r, H1, H2, H3, H4. ring. }
  fold c in QA, QB. rewrite M in QA, QB. unfold Rdiv in QA, QB. rewrite !Rmult_0_l, Rplus_0_r in QA, QB. subst eA eB.
  exists (fun A B => series c L (ThetaOf b A B) (PhiOf b A B)), dA, dB. split; [intros; now apply func_ok|]. auto.
Qed.
Print Assumptions C81_derivs_partial.
(** the surface r = Y_1^0 with lmax = 1, at A = 1, B = 0 of domain 1 *)
Definition co_ex : list R := c_ex ++ repeat 0 8.
Theorem C81_derivs_refuted : exists b co L A B, (dom (ci b) < 6)%nat /\ (S (entry L L) < List.length co / 4)%nat /\ (2 * entry (S L) L + 1 < List.length co)%nat /\ ~ (A = 0 /\ B = 0) /\ ~ C81_claim b co L false A B.
Proof.
  exists (six_ex CubedShell 1), co_ex, 1%nat, 1, 0. assert (D : (dom (ci (six_ex CubedShell 1)) < 6)%nat) by (cbn; lia). split; auto. assert (HN : (S (entry 1 1) < List.length co_ex / 4)%nat) by (cbn; lia). split; auto.
  assert (HC : (2 * entry 2 1 + 1 < List.length co_ex)%nat) by (cbn; lia). split; auto. assert (NZ : ~ (1 = 0 /\ 0 = 0)) by lra. split; auto. intros (f & dA & dB & F & E & _ & H). set (b := six_ex CubedShell 1) in *.
  destruct (derivs_error b co_ex 1 false 1 0 D HC NZ) as (dA' & dB' & eA & eB & E' & _ & DB & TA & TB & PA & PB & ET & _ & QB). cbn [skipn] in DB, QB. rewrite E in E'. injection E' as <- <-.
  assert (EE : dB = eB). { eapply uniqueness_limite; [exact H|]. apply (dlim_ext (fun t => series co_ex 1 (ThetaOf b 1 t) (PhiOf b 1 t))); auto. intros t. specialize (F 1 t). rewrite func_ok in F by auto. injection F as F. cbn [skipn] in F. exact F. }
  assert (TH : ThetaOf b 1 0 = PI / 2). { unfold ThetaOf, ThetaPhi_of_AB_CubSph. cbn [cdir cpm b six_ex dom ci fst Nat.eqb]. unfold cdir, cpm; cbn. rewrite Rmult_0_l. unfold Arg_plus. destruct (Req_EM_T 0 0); [|lra]. destruct (Rlt_dec 0 1); [|lra]. destruct (Req_EM_T 1 0); [lra|]. destruct (Rlt_dec (PI / 2) 0); [pose proof PI_RGT_0; lra|reflexivity]. }
  rewrite TH, sin_PI2 in QB. set (ph := PhiOf b 1 0) in *.
  assert (M : missing co_ex 1 (PI / 2) ph = sqrt (ee 2 0) * (sqrt (nrm 2 0) * (- (1 / 2)))).
  { unfold missing. cbn [sum_f_R0]. unfold wgt. cbn [Nat.eqb]. unfold cph, cf. cbn [INR]. rewrite Rmult_0_l, cos_0, sin_0. unfold co_ex, c_ex. cbn [repeat app].
    match goal with |- context [nth _ ?l _] => set (c := l) end.
    change (nth (2 * ind_lm 1 0 + 0) c 0) with 1. change (nth (2 * ind_lm 1 0 + 1) c 0) with 0. change (nth (2 * ind_lm 2 0 + 0) c 0) with 0. change (nth (2 * ind_lm 2 0 + 1) c 0) with 0.
    change (nth (2 * ind_lm 1 1 + 0) c 0) with 0. change (nth (2 * ind_lm 1 1 + 1) c 0) with 0. change (nth (2 * ind_lm 2 1 + 0) c 0) with 0. change (nth (2 * ind_lm 2 1 + 1) c 0) with 0.
    unfold Tlm at 1. unfold Fth. cbn [pow Nat.add]. rewrite cos_PI2. cbn [rd_k]. unfold rodrigues. cbn [pow fact Nat.mul Nat.add INR]. field. }
  assert (TBN : TB <> 0). { unfold ThetaPhi_dThetaPhidAB_of_AB_CubSph in ET. unfold b in ET. cbn [cdir cpm six_ex dom ci Nat.eqb] in ET. unfold cdir, cpm in ET; cbn in ET. apply (f_equal (fun x => snd (fst (fst x)))) in ET. cbn [fst snd] in ET. rewrite <- ET.
    replace (2 * 1 - 1) with 1 by ring.     destruct (unit_angle 1 (1 * 1) (sqrt 2)) as [-> _]; [apply sqrt_lt_R0; lra|rewrite sqrt_sqrt; lra|]. assert (0 < sqrt 2) by (apply sqrt_lt_R0; lra). unfold dArgdx. rewrite !Rmult_0_l.
    match goal with |- ?x <> 0 => replace x with (- / sqrt 2) by (field; lra) end. apply Ropp_neq_0_compat. apply Rinv_neq_0_compat. lra. }
  assert (0 < sqrt (ee 2 0)). { apply sqrt_lt_R0. unfold ee. cbn [INR]. lra. }
  assert (0 < sqrt (nrm 2 0)) by (apply sqrt_lt_R0; apply nrm_pos).
  assert (0 < sqrt (ee 2 0) * sqrt (nrm 2 0)) by (apply Rmult_lt_0_compat; auto). rewrite M in QB. unfold Rdiv in QB. rewrite Rinv_1, Rmult_1_r in QB.
  assert (Z : sqrt (ee 2 0) * sqrt (nrm 2 0) * TB = 0) by lra. apply Rmult_integral in Z. destruct Z; [lra|auto].
Qed.
Print Assumptions C81_derivs_refuted.
(** the same surface with lmax = 2 meets the hypotheses of C81_derivs_partial; 40 coefficients *)
Example C81_ex : C81_claim (six_ex CubedShell 4) (c_ex ++ repeat 0 28) 2 false 0 1 /\ FSurf_CubSph_sigma01_func (six_ex CubedShell 4) c_ex 1 false 0 1 = Err.
Proof.
  split.
  - apply C81_derivs_partial; [cbn; lia|cbn; lia|cbn; lia|lra|]. intros m Hm. destruct m as [|[|[|m]]]; [cbn; auto..|lia].
  - apply C81_refused. cbn. lia.
Qed.
