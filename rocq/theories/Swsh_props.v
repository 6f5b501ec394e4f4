(** C108: the spin-weighted spherical harmonics that the mode decomposition uses. *)
From Verif Require Import Rutil Rsum Swsh_model Swsh_spec Swsh_proofs.
Local Open Scope R_scope.

(** ** the loops of the code *)
Definition G2 (f : Z -> R) (k k2 : Z) : R := by2 k k2 (fun k w => w + f k) 0.
Lemma by2_lin n g (sg : R) (f : Z -> R) : forall k k2 acc, (forall k w, g k w = w + sg * f k) -> by2_ n k k2 g acc = acc + sg * by2_ n k k2 (fun k w => w + f k) 0.
Proof.
  assert (Sh : forall n k k2 acc, by2_ n k k2 (fun k w => w + f k) acc = acc + by2_ n k k2 (fun k w => w + f k) 0).
  { induction n0 as [|n0 IH]; intros k k2 acc; cbn [by2_]. { ring. } destruct (k <=? k2)%Z; [|ring]. rewrite IH, (IH (k + 2)%Z k2 (0 + f k)). ring. }
  induction n as [|n IH]; intros k k2 acc Hg; cbn [by2_]. { ring. } destruct (k <=? k2)%Z; [|ring]. rewrite IH by auto. rewrite Hg, (Sh n (k + 2)%Z k2 (0 + f k)). ring.
Qed.
Lemma by2_fuel f : forall n n' k k2 acc, (k2 - k + 1 <= Z.of_nat n)%Z -> (k2 - k + 1 <= Z.of_nat n')%Z -> by2_ n k k2 f acc = by2_ n' k k2 f acc.
Proof.
  induction n as [|n IH]; intros n' k k2 acc H H'.
  - destruct n'; auto. cbn [by2_]. destruct (Z.leb_spec k k2); auto. lia.
  - destruct n'. { cbn [by2_]. destruct (Z.leb_spec k k2); auto. lia. } cbn [by2_]. destruct (Z.leb_spec k k2); auto. apply IH; lia.
Qed.
Lemma G2_step f k k2 : (k <= k2)%Z -> G2 f k k2 = f k + G2 f (k + 2) k2.
Proof.
  intros H. unfold G2, by2. replace (Z.to_nat (k2 - k + 1)) with (S (Z.to_nat (k2 - k))) by lia. cbn [by2_]. destruct (Z.leb_spec k k2); [|lia].
  rewrite (by2_lin _ (fun k w => w + f k) 1 f) by (intros; ring). rewrite (by2_fuel _ _ (Z.to_nat (k2 - (k + 2) + 1))) by lia. ring.
Qed.
Lemma G2_nil f k k2 : (k2 < k)%Z -> G2 f k k2 = 0.
Proof. intros H. unfold G2, by2. replace (Z.to_nat (k2 - k + 1)) with 0%nat by lia. reflexivity. Qed.
Lemma G2_alt f n : forall k, G2 f k (k + Z.of_nat n - 1) - G2 f (k + 1) (k + Z.of_nat n - 1) = Sig n (fun i => (-1) ^ i * f (k + Z.of_nat i)%Z).
Proof.
  induction n as [|n IH]; intros k. { rewrite !G2_nil by lia. simpl. ring. }
  rewrite (G2_step f k) by lia. assert (A := IH (k + 1)%Z). replace (k + 1 + Z.of_nat n - 1)%Z with (k + Z.of_nat (S n) - 1)%Z in A by lia. replace (k + 1 + 1)%Z with (k + 2)%Z in A by ring.
  rewrite Sig_S_l. rewrite (Sig_ext n _ (fun i => - 1 * ((-1) ^ i * f (k + 1 + Z.of_nat i)%Z))). 2:{ intros i _. replace (k + Z.of_nat (S i))%Z with (k + 1 + Z.of_nat i)%Z by lia. cbn [pow]. ring. }
  rewrite Sig_scal, <- A. cbn [pow]. replace (k + Z.of_nat 0)%Z with k by lia. ring.
Qed.
Lemma m1_even i : Z.rem (Z.of_nat i) 2 = 0%Z -> (-1) ^ i = 1.
Proof. intros H. apply Z.rem_divide in H; [|lia]. destruct H as [z Hz]. replace i with (2 * Z.to_nat z)%nat by lia. apply pow_1_even. Qed.
Lemma m1_odd i : Z.rem (Z.of_nat i) 2 <> 0%Z -> (-1) ^ i = -1.
Proof.
  intros H. destruct (Z.Even_or_Odd (Z.of_nat i)) as [[z Hz]|[z Hz]]. { exfalso. apply H. apply Z.rem_divide; [lia|]. exists z. lia. }
  replace i with (S (2 * Z.to_nat z)) by lia. apply pow_1_odd.
Qed.
Lemma wig_loops_ok l m s x y k1 k2 : (0 <= k1 <= k2)%Z -> wig_loops l m s x y k1 k2 = Sig (Z.to_nat (k2 - k1 + 1)) (fun i => (-1) ^ (Z.to_nat k1 + i) * wig_term l m s x y (k1 + Z.of_nat i)).
Proof.
  intros H. set (n := Z.to_nat (k2 - k1 + 1)). assert (A := G2_alt (wig_term l m s x y) n k1). replace (k1 + Z.of_nat n - 1)%Z with k2 in A by lia.
  transitivity ((-1) ^ Z.to_nat k1 * (G2 (wig_term l m s x y) k1 k2 - G2 (wig_term l m s x y) (k1 + 1) k2)).
  - unfold wig_loops, G2, by2. set (f := wig_term l m s x y). destruct (Z.eqb_spec (Z.rem k1 2) 0) as [E|E].
    + rewrite (by2_lin _ (fun k w => w - f k) (-1) f) by (intros; ring). rewrite m1_even by (rewrite Z2Nat.id by lia; auto). ring.
    + rewrite (by2_lin _ (fun k w => w + f k) 1 f) by (intros; ring). rewrite (by2_lin _ (fun k w => w - f k) (-1) f) by (intros; ring). rewrite m1_odd by (rewrite Z2Nat.id by lia; auto). ring.
  - rewrite A, <- Sig_scal. apply Sig_ext. intros i _. rewrite pow_add. ring.
Qed.
Lemma dfact_ok n : (0 <= n)%Z -> dfact n = zfact n.
Proof.
  intros H. unfold dfact. assert (A : forall k n, Z.to_nat n = k -> (0 <= n)%Z -> dfact_ k n = zfact n); [|now apply A].
  induction k as [|k IH]; intros z E Hz; cbn [dfact_]. { replace z with 0%Z by lia. reflexivity. }
  destruct (Z.leb_spec z 1). { replace z with 1%Z by lia. reflexivity. } rewrite IH by lia. now rewrite <- zfact_S by lia.
Qed.
Lemma powerRZ_nat x n : (0 <= n)%Z -> powerRZ x n = x ^ Z.to_nat n.
Proof. intros H. rewrite <- (Z2Nat.id n) at 1 by auto. rewrite <- pow_powerRZ. reflexivity. Qed.
Lemma wig_norm_ok l m s : modes l m s -> wig_norm l m s = Nrm l m s.
Proof. intros [H1 H2]. unfold wig_norm, Nrm. rewrite !dfact_ok by lia. reflexivity. Qed.
Lemma wig_term_ok l m s th k : (0 <= k)%Z -> (0 <= l + m - k)%Z -> (0 <= l - s - k)%Z -> (0 <= k + s - m)%Z ->
  (-1) ^ Z.to_nat k * wig_term l m s (cos (th / 2)) (sin (th / 2)) k = Wt l m s th (Z.to_nat k).
Proof.
  intros H1 H2 H3 H4. unfold wig_term, Wt, Kc, mono, ea, eb. rewrite Z2Nat.id by lia. rewrite !powerRZ_nat by lia. rewrite !dfact_ok, !ifact_nn by lia.
  field. repeat split; apply Rgt_not_eq, zfact_pos.
Qed.
Lemma Sig_window N f a n : (a + n <= N)%nat -> (forall i, (i < N)%nat -> (i < a)%nat \/ (a + n <= i)%nat -> f i = 0) -> Sig N f = Sig n (fun i => f (a + i)%nat).
Proof.
  intros H Z. replace N with (a + (n + (N - a - n)))%nat by lia. rewrite Sig_add, Sig_add. rewrite (Sig_zero a) by (intros; apply Z; lia). rewrite (Sig_zero (N - a - n)) by (intros; apply Z; lia). ring.
Qed.
Lemma loops_W l m s th : modes l m s -> let k1 := if (m <? s)%Z then 0%Z else (m - s)%Z in let k2 := if (m <? - s)%Z then (l + m)%Z else (l - s)%Z in
  (0 <= k1 <= k2)%Z /\ wig_loops l m s (cos (th / 2)) (sin (th / 2)) k1 k2 = W l m s th.
Proof.
  intros [H1 H2] k1 k2. assert (E1 : k1 = Z.max 0 (m - s)) by (unfold k1; destruct (Z.ltb_spec m s); lia). assert (E2 : k2 = Z.min (l + m) (l - s)) by (unfold k2; destruct (Z.ltb_spec m (- s)); lia).
  assert (K : (0 <= k1 <= k2)%Z) by lia. split; auto. rewrite wig_loops_ok by auto. unfold W. rewrite (Sig_window (top l) (Wt l m s th) (Z.to_nat k1) (Z.to_nat (k2 - k1 + 1))).
  - apply Sig_ext. intros i Hi. replace (Z.to_nat k1 + i)%nat with (Z.to_nat (k1 + Z.of_nat i)) by lia. apply wig_term_ok; lia.
  - unfold top. lia.
  - intros i Hi O. unfold Wt. destruct (Kc_nz l m s (Z.of_nat i)) as [E|E]; [rewrite E; ring|lia].
Qed.
Lemma half th : th * 0.5 = th / 2. Proof. lra. Qed.
Lemma WT_dd l m s th : modes l m s -> Wigner_WT l m s th = dd l m s th.
Proof. intros H. unfold Wigner_WT, dd. rewrite half. cbv zeta. destruct (loops_W l m s th H) as [_ E]. cbv zeta in E. now rewrite E, wig_norm_ok. Qed.
Lemma spec_dd l m s th : modes l m s -> wigner_d l m s th = dd l m s th.
Proof.
  intros [H1 H2]. unfold wigner_d, dd, Nrm. f_equal. unfold W, top. replace (Z.to_nat (2 * l + 3)) with (S (Z.to_nat (2 * l)) + 2)%nat by lia. rewrite Sig_add. rewrite (Sig_zero 2). 2:{ intros i Hi. unfold Wt. destruct (Kc_nz l m s (Z.of_nat (S (Z.to_nat (2 * l)) + i))) as [E|E]; [rewrite E; ring|lia]. }
  rewrite Rplus_0_r. apply Sig_ext. intros i _. unfold wigner_term, Wt. cbv zeta. destruct (Z.leb_spec 0 (l + m - Z.of_nat i)) as [A|A]; [destruct (Z.leb_spec 0 (l - s - Z.of_nat i)) as [B|B]; [destruct (Z.leb_spec 0 (Z.of_nat i + s - m)) as [D|D]|]|]; cbn [andb].
  - unfold Kc, mono, ea, eb. rewrite !ifact_nn by lia. field. repeat split; apply Rgt_not_eq, zfact_pos.
  - destruct (Kc_nz l m s (Z.of_nat i)) as [E|E]; [rewrite E; ring|lia].
  - destruct (Kc_nz l m s (Z.of_nat i)) as [E|E]; [rewrite E; ring|lia].
  - destruct (Kc_nz l m s (Z.of_nat i)) as [E|E]; [rewrite E; ring|lia].
Qed.
(** ** Wigner's function *)
Theorem C108_wigner l m s th : modes l m s -> Wigner_WT l m s th = wigner_d l m s th.
Proof. intros H. now rewrite WT_dd, spec_dd. Qed.
Lemma sqrt_half x z : 0 <= x -> z = x * x -> sqrt z = x. Proof. intros H ->. now apply sqrt_square. Qed.
Theorem C108_wigner_PG l m s th : modes l m s -> 0 <= th <= PI -> Wigner_PG l m s th = wigner_d l m s th.
Proof.
  intros H Ht. rewrite spec_dd by auto. unfold Wigner_PG, dd. cbv zeta. assert (PP := PI_RGT_0).
  rewrite (sqrt_half (cos (th / 2))); [|apply cos_ge_0; lra|rewrite cos_half; assert (O := one_half th); lra].
  rewrite (sqrt_half (sin (th / 2))); [|apply sin_ge_0; lra|rewrite cos_half; assert (O := one_half th); lra].
  destruct (loops_W l m s th H) as [K E]. cbv zeta in K, E. set (k1 := if (m <? s)%Z then _ else _) in *. set (k2 := if (m <? - s)%Z then _ else _) in *. rewrite wig_norm_ok by auto. f_equal. rewrite <- E.
  destruct (Z.ltb_spec k1 k2); auto. now replace k2 with k1 by lia.
Qed.
Print Assumptions C108_wigner_PG.
(** at the north pole it is the unit matrix *)
Theorem C108_north l m s : modes l m s -> Wigner_WT l m s 0 = if Z.eq_dec m s then 1 else 0.
Proof.
  intros H. rewrite WT_dd by auto. destruct H as [H1 H2]. unfold dd, W. assert (Z0 : sin (0 / 2) = 0) by (replace (0 / 2) with 0 by field; apply sin_0). assert (Z1 : cos (0 / 2) = 1) by (replace (0 / 2) with 0 by field; apply cos_0).
  destruct (Z.eq_dec m s) as [->|N].
  - rewrite (Sig_single (top l) 0); [|unfold top; lia|].
    + unfold Wt, Kc, mono, ea, eb. rewrite Z0, Z1, pow1. change (Z.of_nat 0) with 0%Z. replace (2 * 0 + s - s)%Z with 0%Z by ring. replace (0 + s - s)%Z with 0%Z by ring. replace (l + s - 0)%Z with (l + s)%Z by ring. replace (l - s - 0)%Z with (l - s)%Z by ring. rewrite !ifact_nn by lia. change (zfact 0) with 1. cbn [pow Z.to_nat].
      assert (Q : Nrm l s s = zfact (l + s) * zfact (l - s)). { unfold Nrm. apply sqrt_half; [|ring]. apply Rmult_le_pos; left; apply zfact_pos. } rewrite Q. field. split; apply Rgt_not_eq, zfact_pos.
    + intros i _ Ni. unfold Wt, mono. rewrite Z0. destruct (Kc_nz l s s (Z.of_nat i)) as [E|E]; [rewrite E; ring|]. rewrite (pow_i (Z.to_nat (eb _ _ _))) by (unfold eb; lia). ring.
  - rewrite Sig_zero; [ring|]. intros i _. unfold Wt, mono. rewrite Z0. destruct (Kc_nz l m s (Z.of_nat i)) as [E|E]; [rewrite E; ring|]. rewrite (pow_i (Z.to_nat (eb _ _ _))) by (unfold eb; lia). ring.
Qed.
(** ** eth raises and eth-bar lowers the spin weight *)
Lemma modes_neg l m s : modes l m s -> modes l m (- s). Proof. unfold modes. lia. Qed.
Lemma sylm_c_next l s : sylm_c l (s + 1) = - sylm_c l s.
Proof.
  unfold sylm_c. cbv zeta. destruct (Z.eqb_spec (Z.rem s 2) 0) as [E|E], (Z.eqb_spec (Z.rem (s + 1) 2) 0) as [F|F]; try ring; exfalso.
  - apply Z.rem_divide in E, F; [|lia..]. destruct E as [a Ha], F as [b Hb]. lia.
  - destruct (Z.Even_or_Odd s) as [[z Hz]|[z Hz]]. { apply E. apply Z.rem_divide; [lia|]. exists z. lia. } apply F. apply Z.rem_divide; [lia|]. exists (z + 1)%Z. lia.
Qed.
Lemma dphi_cos m ph A : derivable_pt_lim (fun p => A * cos (IZR m * p)) ph (A * (- sin (IZR m * ph) * IZR m)).
Proof.
  apply (derivable_pt_lim_scal (fun p => cos (IZR m * p))). apply (derivable_pt_lim_comp (fun p => IZR m * p) cos ph (IZR m) (- sin (IZR m * ph))); [|apply derivable_pt_lim_cos].
  replace (IZR m) with (IZR m * 1) at 1 by ring. apply (derivable_pt_lim_scal (fun p => p)), derivable_pt_lim_id.
Qed.
Lemma dphi_sin m ph A : derivable_pt_lim (fun p => A * sin (IZR m * p)) ph (A * (cos (IZR m * ph) * IZR m)).
Proof.
  apply (derivable_pt_lim_scal (fun p => sin (IZR m * p))). apply (derivable_pt_lim_comp (fun p => IZR m * p) sin ph (IZR m) (cos (IZR m * ph))); [|apply derivable_pt_lim_sin].
  replace (IZR m) with (IZR m * 1) at 1 by ring. apply (derivable_pt_lim_scal (fun p => p)), derivable_pt_lim_id.
Qed.
Lemma dth l m s th A : modes l m s -> derivable_pt_lim (fun t => A * Wigner_WT l m s t) th (A * Ddd l m s th).
Proof. intros H. apply (derivable_pt_lim_scal (Wigner_WT l m s)). intros eps He. destruct (dd_deriv l m s th eps He) as [d Hd]. exists d. intros h Hh Hl. rewrite !WT_dd by auto. now apply Hd. Qed.
Lemma dth' l m s th A B : modes l m s -> derivable_pt_lim (fun t => A * Wigner_WT l m s t * B) th (A * Ddd l m s th * B).
Proof. intros H. apply (derivable_pt_lim_scal_right (fun t => A * Wigner_WT l m s t)). now apply dth. Qed.
Lemma K_low l m s th : modes l m s -> sqrt (IZR (l - s) * IZR (l + s + 1)) * (sin th * Wigner_WT l m (- (s + 1)) th) = sin th * Ddd l m (- s) th - (IZR m + IZR s * cos th) * Wigner_WT l m (- s) th.
Proof.
  intros H. assert (L := lower l m (- s) th ltac:(unfold modes in H; lia)). rewrite (WT_dd l m (- s)) by now apply modes_neg. rewrite opp_IZR in L.
  replace (sin th * Ddd l m (- s) th - (IZR m + IZR s * cos th) * dd l m (- s) th) with (lam l (- s - 1) * sin th * dd l m (- s - 1) th) by (rewrite <- L; ring).
  destruct (Z.eq_dec s l) as [->|N].
  - unfold dd. rewrite (W_below l m (- l - 1)) by lia. replace (l - l)%Z with 0%Z by ring. rewrite Rmult_0_l, sqrt_0. ring.
  - rewrite WT_dd by (unfold modes in *; lia). replace (- (s + 1))%Z with (- s - 1)%Z by ring. unfold lam. replace (l - (- s - 1))%Z with (l + s + 1)%Z by ring. replace (l + (- s - 1) + 1)%Z with (l - s)%Z by ring. rewrite (Rmult_comm (IZR (l + s + 1))). ring.
Qed.
Lemma K_high l m s th : modes l m s -> - sqrt (IZR (l + s) * IZR (l - s + 1)) * (sin th * Wigner_WT l m (- (s - 1)) th) = sin th * Ddd l m (- s) th + (IZR m + IZR s * cos th) * Wigner_WT l m (- s) th.
Proof.
  intros H. assert (L := raise l m (- s) th ltac:(unfold modes in H; lia)). rewrite (WT_dd l m (- s)) by now apply modes_neg. rewrite opp_IZR in L.
  replace (sin th * Ddd l m (- s) th + (IZR m + IZR s * cos th) * dd l m (- s) th) with (- lam l (- s) * sin th * dd l m (- s + 1) th) by (rewrite <- L; ring).
  destruct (Z.eq_dec s (- l)) as [->|N].
  - unfold dd. rewrite (W_above l m (- - l + 1)) by lia. replace (l + - l)%Z with 0%Z by ring. rewrite Rmult_0_l, sqrt_0. ring.
  - rewrite WT_dd by (unfold modes in *; lia). replace (- (s - 1))%Z with (- s + 1)%Z by ring. unfold lam. replace (l - - s)%Z with (l + s)%Z by ring. replace (l + - s + 1)%Z with (l - s + 1)%Z by ring. ring.
Qed.
Theorem C108_eth l m s : modes l m s -> let k := sqrt (IZR (l - s) * IZR (l + s + 1)) in
  is_eth s (Re_sYlm l m s) (Im_sYlm l m s) (fun th ph => k * Re_sYlm l m (s + 1) th ph) (fun th ph => k * Im_sYlm l m (s + 1) th ph).
Proof.
  intros H k th ph Ht. assert (Sp : sin th <> 0) by (apply Rgt_not_eq, sin_gt_0; lra). assert (H' := modes_neg l m s H). assert (K := K_low l m s th H). fold k in K. unfold Re_sYlm, Im_sYlm. set (A := sylm_c l s).
  exists (A * Ddd l m (- s) th * cos (IZR m * ph)), (A * Ddd l m (- s) th * sin (IZR m * ph)), (A * Wigner_WT l m (- s) th * (- sin (IZR m * ph) * IZR m)), (A * Wigner_WT l m (- s) th * (cos (IZR m * ph) * IZR m)).
  repeat split; try (now apply dth'); try apply dphi_cos; try apply dphi_sin.
  - rewrite sylm_c_next. fold A. apply (Rmult_eq_reg_l (sin th)); auto. transitivity (- A * (k * (sin th * Wigner_WT l m (- (s + 1)) th)) * cos (IZR m * ph)); [ring|]. rewrite K. field. auto.
  - rewrite sylm_c_next. fold A. apply (Rmult_eq_reg_l (sin th)); auto. transitivity (- A * (k * (sin th * Wigner_WT l m (- (s + 1)) th)) * sin (IZR m * ph)); [ring|]. rewrite K. field. auto.
Qed.
Lemma sylm_c_prev l s : sylm_c l (s - 1) = - sylm_c l s.
Proof. assert (A := sylm_c_next l (s - 1)). replace (s - 1 + 1)%Z with s in A by ring. lra. Qed.
Theorem C108_ethbar l m s : modes l m s -> let k := - sqrt (IZR (l + s) * IZR (l - s + 1)) in
  is_ethbar s (Re_sYlm l m s) (Im_sYlm l m s) (fun th ph => k * Re_sYlm l m (s - 1) th ph) (fun th ph => k * Im_sYlm l m (s - 1) th ph).
Proof.
  intros H k th ph Ht. assert (Sp : sin th <> 0) by (apply Rgt_not_eq, sin_gt_0; lra). assert (H' := modes_neg l m s H). assert (K := K_high l m s th H). fold k in K. unfold Re_sYlm, Im_sYlm. set (A := sylm_c l s).
  exists (A * Ddd l m (- s) th * cos (IZR m * ph)), (A * Ddd l m (- s) th * sin (IZR m * ph)), (A * Wigner_WT l m (- s) th * (- sin (IZR m * ph) * IZR m)), (A * Wigner_WT l m (- s) th * (cos (IZR m * ph) * IZR m)).
  repeat split; try (now apply dth'); try apply dphi_cos; try apply dphi_sin.
  - rewrite sylm_c_prev. fold A. apply (Rmult_eq_reg_l (sin th)); auto. transitivity (- A * (k * (sin th * Wigner_WT l m (- (s - 1)) th)) * cos (IZR m * ph)); [ring|]. rewrite K. field. auto.
  - rewrite sylm_c_prev. fold A. apply (Rmult_eq_reg_l (sin th)); auto. transitivity (- A * (k * (sin th * Wigner_WT l m (- (s - 1)) th)) * sin (IZR m * ph)); [ring|]. rewrite K. field. auto.
Qed.
Print Assumptions C108_eth.
Print Assumptions C108_ethbar.
(** ** orthonormality on the sphere *)
Lemma sylm_c_sq l s : (0 <= l)%Z -> sylm_c l s * sylm_c l s = IZR (2 * l + 1) / (4 * PI).
Proof.
  intros H. assert (PP := PI_RGT_0). assert (E : (2.0 * IZR l + 1) / (4 * PI) = IZR (2 * l + 1) / (4 * PI)) by (rewrite plus_IZR, mult_IZR; replace 2.0 with 2 by lra; reflexivity).
  unfold sylm_c. rewrite E. assert (P : 0 <= IZR (2 * l + 1) / (4 * PI)). { apply Rmult_le_pos. { apply IZR_le. lia. } left. apply Rinv_0_lt_compat. lra. }
  cbv zeta. destruct (_ =? 0)%Z; [|replace (- sqrt (IZR (2 * l + 1) / (4 * PI)) * - sqrt (IZR (2 * l + 1) / (4 * PI))) with (sqrt (IZR (2 * l + 1) / (4 * PI)) * sqrt (IZR (2 * l + 1) / (4 * PI))) by ring]; now apply sqrt_sqrt.
Qed.
Lemma cos_mode n A : integral (fun ph => A * cos (IZR n * ph)) 0 (2 * PI) (if Z.eq_dec n 0 then 2 * PI * A else 0).
Proof.
  destruct (Z.eq_dec n 0) as [->|N].
  - exists (fun ph => A * ph). split; [|ring]. intros X. rewrite Rmult_0_l, cos_0. apply (derivable_pt_lim_scal (fun p => p)), derivable_pt_lim_id.
  - assert (N' : IZR n <> 0) by now apply not_0_IZR. exists (fun ph => A / IZR n * sin (IZR n * ph)). split.
    + intros X. replace (A * cos (IZR n * X)) with (A / IZR n * (cos (IZR n * X) * IZR n)) by (field; auto). apply dphi_sin.
    + rewrite Rmult_0_r, sin_0. replace (sin (IZR n * (2 * PI))) with 0; [ring|]. symmetry. apply sin_eq_0_1. exists (2 * n)%Z. rewrite mult_IZR. ring.
Qed.
Lemma cos_2pi_n n : cos (IZR n * (2 * PI)) = 1.
Proof. replace (IZR n * (2 * PI)) with (2 * (IZR n * PI)) by ring. rewrite cos_2a_sin. replace (sin (IZR n * PI)) with 0; [ring|]. symmetry. apply sin_eq_0_1. now exists n. Qed.
Lemma sin_mode n A : integral (fun ph => A * sin (IZR n * ph)) 0 (2 * PI) 0.
Proof.
  destruct (Z.eq_dec n 0) as [->|N].
  - exists (fun _ => 0). split; [|ring]. intros X. rewrite Rmult_0_l, sin_0, Rmult_0_r. apply derivable_pt_lim_const.
  - assert (N' : IZR n <> 0) by now apply not_0_IZR. exists (fun ph => - A / IZR n * cos (IZR n * ph)). split.
    + intros X. replace (A * sin (IZR n * X)) with (- A / IZR n * (- sin (IZR n * X) * IZR n)) by (field; auto). apply dphi_cos.
    + rewrite Rmult_0_r, cos_0, cos_2pi_n. ring.
Qed.
Lemma int_zero : integral (fun th => 0 * sin th) 0 PI 0.
Proof. exists (fun _ => 0). split; [|ring]. intros X. rewrite Rmult_0_l. apply derivable_pt_lim_const. Qed.
Theorem C108_orthonormal l m l' m' s : modes l m s -> modes l' m' s ->
  inner_product (Re_sYlm l m s) (Im_sYlm l m s) (Re_sYlm l' m' s) (Im_sYlm l' m' s) (if Z.eq_dec l l' then if Z.eq_dec m m' then 1 else 0 else 0) 0.
Proof.
  intros H H'. assert (PP := PI_RGT_0). set (A := fun th => sylm_c l s * Wigner_WT l m (- s) th * (sylm_c l' s * Wigner_WT l' m' (- s) th)). split.
  - exists (fun th => if Z.eq_dec (m' - m) 0 then 2 * PI * A th else 0). split.
    + intros th. refine (int_ext _ _ 0 (2 * PI) _ _ _ eq_refl (cos_mode (m' - m) (A th))). intros ph. unfold A, Re_sYlm, Im_sYlm. rewrite minus_IZR. replace ((IZR m' - IZR m) * ph) with (IZR m' * ph - IZR m * ph) by ring. rewrite cos_minus. ring.
    + destruct (Z.eq_dec (m' - m) 0) as [E|E].
      * assert (m' = m) by lia. subst m'. destruct (Z.eq_dec m m); [|congruence]. destruct (Z.eq_dec l l') as [El|El].
        -- subst l'. refine (int_ext _ _ 0 PI _ _ _ _ (int_scal _ 0 PI _ (2 * PI * (sylm_c l s * sylm_c l s)) (norm l m (- s) ltac:(unfold modes in H; lia) ltac:(unfold modes in H; lia)))).
           ++ intros t. unfold A, prd. rewrite !WT_dd by now apply modes_neg. ring.
           ++ rewrite sylm_c_sq by (unfold modes in H; lia). field. split; [|lra]. apply not_0_IZR. unfold modes in H. lia.
        -- refine (int_ext _ _ 0 PI _ _ _ _ (int_scal _ 0 PI _ (2 * PI * (sylm_c l s * sylm_c l' s)) (orth l l' m (- s) El ltac:(unfold modes in H; lia) ltac:(unfold modes in H'; lia)))); [|ring].
           intros t. unfold A, prd. rewrite !WT_dd by now apply modes_neg. ring.
      * destruct (Z.eq_dec m m'); [lia|]. destruct (Z.eq_dec l l'); apply int_zero.
  - exists (fun _ => 0). split; [|apply int_zero]. intros th. refine (int_ext _ _ 0 (2 * PI) _ _ _ eq_refl (sin_mode (m' - m) (A th))). intros ph. unfold A, Re_sYlm, Im_sYlm. rewrite minus_IZR. replace ((IZR m' - IZR m) * ph) with (IZR m' * ph - IZR m * ph) by ring. rewrite sin_minus. ring.
Qed.
Print Assumptions C108_orthonormal.
(** ** complex conjugation *)
Lemma Kc_flip l m s k : Kc l (- m) (- s) (k + s - m) = Kc l m s k.
Proof. unfold Kc. replace (l + - m - (k + s - m))%Z with (l - s - k)%Z by ring. replace (l - - s - (k + s - m))%Z with (l + m - k)%Z by ring. replace (k + s - m + - s - - m)%Z with k by ring. ring. Qed.
Lemma Wt_flip l m s th i j : Z.of_nat j = (Z.of_nat i + s - m)%Z -> Wt l (- m) (- s) th j = (-1) ^ (i + j) * Wt l m s th i.
Proof.
  intros E. unfold Wt. rewrite E, Kc_flip. replace (ea l (- m) (- s) (Z.of_nat i + s - m)) with (ea l m s (Z.of_nat i)) by (unfold ea; ring). replace (eb (- m) (- s) (Z.of_nat i + s - m)) with (eb m s (Z.of_nat i)) by (unfold eb; ring).
  rewrite pow_add. replace ((-1) ^ j) with ((-1) ^ j * ((-1) ^ i * (-1) ^ i)) at 1; [ring|]. rewrite <- pow_add. replace (i + i)%nat with (2 * i)%nat by lia. rewrite pow_1_even. ring.
Qed.
Lemma W_flip_le l m s th : modes l m s -> (m <= s)%Z -> W l (- m) (- s) th = (-1) ^ Z.to_nat (s - m) * W l m s th.
Proof.
  intros [H1 H2] H. set (d := Z.to_nat (s - m)). unfold W at 1. rewrite (Sig_window (top l) _ d (top l - d)).
  - unfold W. rewrite (Sig_window (top l) (Wt l m s th) 0 (top l - d)).
    + rewrite <- Sig_scal. apply Sig_ext. intros i _. cbn [plus]. rewrite (Wt_flip l m s th i (d + i)) by (unfold d; lia). replace (i + (d + i))%nat with (d + 2 * i)%nat by lia. rewrite pow_add, pow_1_even. ring.
    + lia.
    + intros i Hi [O|O]; [lia|]. unfold Wt. destruct (Kc_nz l m s (Z.of_nat i)) as [E|E]; [rewrite E; ring|]. unfold d, top in *. lia.
  - unfold d, top. lia.
  - intros i Hi [O|O]; [|lia]. unfold Wt. destruct (Kc_nz l (- m) (- s) (Z.of_nat i)) as [E|E]; [rewrite E; ring|]. unfold d in *. lia.
Qed.
Lemma W_flip l m s th : modes l m s -> W l (- m) (- s) th = (-1) ^ Z.abs_nat (s - m) * W l m s th.
Proof.
  intros H. destruct (Z_le_gt_dec m s) as [L|G].
  - rewrite W_flip_le by auto. do 2 f_equal. lia.
  - assert (A := W_flip_le l (- m) (- s) th ltac:(unfold modes in *; lia) ltac:(lia)). rewrite !Z.opp_involutive in A. replace (Z.to_nat (- s - - m)) with (Z.abs_nat (s - m)) in A by lia. rewrite A.
    rewrite <- Rmult_assoc, <- pow_add. replace (Z.abs_nat (s - m) + Z.abs_nat (s - m))%nat with (2 * Z.abs_nat (s - m))%nat by lia. rewrite pow_1_even. ring.
Qed.
Lemma Nrm_flip l m s : Nrm l (- m) (- s) = Nrm l m s.
Proof. unfold Nrm. f_equal. replace (l + - m)%Z with (l - m)%Z by ring. replace (l - - m)%Z with (l + m)%Z by ring. replace (l + - s)%Z with (l - s)%Z by ring. replace (l - - s)%Z with (l + s)%Z by ring. ring. Qed.
Lemma sylm_c_neg l s : sylm_c l (- s) = sylm_c l s.
Proof. unfold sylm_c. rewrite Z.rem_opp_l by lia. cbv zeta. destruct (Z.eqb_spec (- Z.rem s 2) 0), (Z.eqb_spec (Z.rem s 2) 0); auto; lia. Qed.
(** conj(sYlm) = (-1)^(m+s) -sYl-m *)
Theorem C108_conj l m s th ph : modes l m s ->
  Re_sYlm l (- m) (- s) th ph = (-1) ^ Z.abs_nat (m + s) * Re_sYlm l m s th ph /\ Im_sYlm l (- m) (- s) th ph = - (-1) ^ Z.abs_nat (m + s) * Im_sYlm l m s th ph.
Proof.
  intros H. assert (H' := modes_neg l m s H). assert (E : Wigner_WT l (- m) (- - s) th = (-1) ^ Z.abs_nat (m + s) * Wigner_WT l m (- s) th).
  { rewrite !WT_dd by (unfold modes in *; lia). unfold dd. rewrite Nrm_flip, W_flip by auto. replace (Z.abs_nat (- s - m)) with (Z.abs_nat (m + s)) by lia. ring. }
  unfold Re_sYlm, Im_sYlm. rewrite E, sylm_c_neg, opp_IZR. replace (- IZR m * ph) with (- (IZR m * ph)) by ring. rewrite cos_neg, sin_neg. split; ring.
Qed.
Print Assumptions C108_conj.
(** ** the convention: l = m = 2 with spin weight -2 is sqrt(5/(64 pi)) (1 + cos theta)^2 exp(2 i phi), and Y00 is 1/sqrt(4 pi) *)
Example C108_2m2 th ph : Re_sYlm 2 2 (-2) th ph = sqrt (5 / (64 * PI)) * ((1 + cos th) * (1 + cos th)) * cos (2 * ph) /\ modes 2 2 (-2).
Proof.
  split; [|unfold modes; lia]. assert (PP := PI_RGT_0). unfold Re_sYlm. change (- -2)%Z with 2%Z. rewrite WT_dd by (unfold modes; lia). f_equal. unfold dd, W. rewrite (Sig_single (top 2) 0); [|vm_compute; lia|].
  - unfold Wt, Kc, mono, ea, eb. cbn [Z.of_nat]. change (2 + 2 - 0)%Z with 4%Z. change (2 - 2 - 0)%Z with 0%Z. change (0 + 2 - 2)%Z with 0%Z. change (Z.to_nat (2 * 2 + 2 - 2 - 2 * 0)) with 4%nat. change (Z.to_nat (2 * 0 + 2 - 2)) with 0%nat. rewrite !ifact_nn by lia.
    assert (Q : Nrm 2 2 2 = zfact 4). { unfold Nrm. change (2 + 2)%Z with 4%Z. change (2 - 2)%Z with 0%Z. change (zfact 0) with 1. apply sqrt_half; [left; apply zfact_pos|ring]. } rewrite Q. change (zfact 0) with 1.
    assert (X : sylm_c 2 (-2) = 4 * sqrt (5 / (64 * PI))).
    { unfold sylm_c. change (Z.rem (-2) 2 =? 0)%Z with true. cbv zeta iota. apply sqrt_half. { apply Rmult_le_pos; [lra|apply sqrt_pos]. } transitivity (16 * (sqrt (5 / (64 * PI)) * sqrt (5 / (64 * PI)))); [|ring].
      rewrite sqrt_sqrt by (apply Rmult_le_pos; [lra|]; left; apply Rinv_0_lt_compat; lra). replace (2.0 * 2 + 1) with 5 by lra. field. lra. }
    rewrite X. replace (1 + cos th) with (2 * (cos (th / 2) * cos (th / 2))) by (rewrite (cos_half th); assert (O := one_half th); lra). cbn [pow]. field. apply Rgt_not_eq, zfact_pos.
  - intros i _ N. unfold Wt. destruct (Kc_nz 2 2 2 (Z.of_nat i)) as [K|K]; [rewrite K; ring|lia].
Qed.
Example C108_00 th ph : Re_sYlm 0 0 0 th ph = sqrt (1 / (4 * PI)) /\ Im_sYlm 0 0 0 th ph = 0.
Proof.
  assert (E : Wigner_WT 0 0 (- 0) th = 1). { rewrite WT_dd by (unfold modes; lia). unfold dd, W. rewrite (Sig_single (top 0) 0); [|vm_compute; lia|].
    - unfold Wt, Kc, mono, Nrm, ifact, zfact. cbn. rewrite !Rmult_1_r, sqrt_1. field.
    - intros i _ N. unfold Wt. destruct (Kc_nz 0 0 (- 0) (Z.of_nat i)) as [K|K]; [rewrite K; ring|lia]. }
  unfold Re_sYlm, Im_sYlm. rewrite E, Rmult_0_l, cos_0, sin_0. unfold sylm_c. cbn. split; [|ring]. rewrite !Rmult_1_r. do 2 f_equal. lra.
Qed.
