(** Proofs about Wigner's d-function: ladder identities, orthogonality. *)
From Verif Require Import Rutil Rsum Swsh_spec.
Local Open Scope R_scope.

(** 1/n!, and 0 for n < 0 *)
Definition ifact (n : Z) : R := if (n <? 0)%Z then 0 else / zfact n.
Lemma zfact_pos n : 0 < zfact n. Proof. unfold zfact. apply lt_0_INR. apply lt_O_fact. Qed.
Lemma zfact_S n : (0 < n)%Z -> zfact n = IZR n * zfact (n - 1).
Proof. intros H. unfold zfact. replace (Z.to_nat n) with (S (Z.to_nat (n - 1))) by lia. rewrite fact_simpl, mult_INR. f_equal. rewrite INR_IZR_INZ. f_equal. lia. Qed.
Lemma zfact_0 : zfact 0 = 1. Proof. reflexivity. Qed.
Lemma ifact_neg n : (n < 0)%Z -> ifact n = 0. Proof. intros H. unfold ifact. destruct (Z.ltb_spec n 0); [reflexivity|lia]. Qed.
Lemma ifact_nn n : (0 <= n)%Z -> ifact n = / zfact n. Proof. intros H. unfold ifact. destruct (Z.ltb_spec n 0); [lia|reflexivity]. Qed.
Lemma ifact_step n : IZR n * ifact n = ifact (n - 1).
Proof.
  destruct (Z.lt_trichotomy n 0) as [H|[H|H]].
  - rewrite !ifact_neg by lia. ring.
  - subst. rewrite (ifact_neg (0 - 1)) by lia. ring.
  - rewrite !ifact_nn by lia. rewrite (zfact_S n) by auto. field. split. { apply Rgt_not_eq, zfact_pos. } apply not_0_IZR. lia.
Qed.
(** coefficients and monomials *)
Definition Kc (l m s : Z) (k : Z) : R := ifact (l + m - k) * ifact (l - s - k) * ifact k * ifact (k + s - m).
Definition mono (x y : R) (A B : Z) : R := x ^ Z.to_nat A * y ^ Z.to_nat B.
Definition ea (l m s k : Z) : Z := (2 * l + m - s - 2 * k)%Z.
Definition eb (m s k : Z) : Z := (2 * k + s - m)%Z.
Definition Wt (l m s : Z) (th : R) (i : nat) : R := (-1) ^ i * Kc l m s (Z.of_nat i) * mono (cos (th / 2)) (sin (th / 2)) (ea l m s (Z.of_nat i)) (eb m s (Z.of_nat i)).
Definition DWt (l m s : Z) (th : R) (i : nat) : R :=
  let p := Z.to_nat (ea l m s (Z.of_nat i)) in let q := Z.to_nat (eb m s (Z.of_nat i)) in
  (-1) ^ i * Kc l m s (Z.of_nat i) * (INR p * cos (th / 2) ^ pred p * (- sin (th / 2) * / 2) * sin (th / 2) ^ q + cos (th / 2) ^ p * (INR q * sin (th / 2) ^ pred q * (cos (th / 2) * / 2))).
Definition top (l : Z) : nat := Z.to_nat (2 * l + 3).
Definition W (l m s : Z) (th : R) : R := Sig (top l) (Wt l m s th).
Definition DW (l m s : Z) (th : R) : R := Sig (top l) (DWt l m s th).
Lemma Kc_nz l m s k : Kc l m s k = 0 \/ (0 <= l + m - k /\ 0 <= l - s - k /\ 0 <= k /\ 0 <= k + s - m)%Z.
Proof.
  unfold Kc. destruct (Z_lt_le_dec (l + m - k) 0). { left. rewrite ifact_neg by auto. ring. } destruct (Z_lt_le_dec (l - s - k) 0). { left. rewrite (ifact_neg (l - s - k)) by auto. ring. }
  destruct (Z_lt_le_dec k 0). { left. rewrite (ifact_neg k) by auto. ring. } destruct (Z_lt_le_dec (k + s - m) 0). { left. rewrite (ifact_neg (k + s - m)) by auto. ring. } right. lia.
Qed.
Lemma mono_x x y A B : (0 <= A)%Z -> x * x * mono x y A B = mono x y (A + 2) B.
Proof. intros H. unfold mono. replace (Z.to_nat (A + 2)) with (2 + Z.to_nat A)%nat by lia. rewrite pow_add. simpl. ring. Qed.
Lemma mono_y x y A B : (0 <= B)%Z -> y * y * mono x y A B = mono x y A (B + 2).
Proof. intros H. unfold mono. replace (Z.to_nat (B + 2)) with (2 + Z.to_nat B)%nat by lia. rewrite pow_add. simpl. ring. Qed.
Lemma mono_xy x y A B : (0 <= A)%Z -> (0 <= B)%Z -> x * y * mono x y A B = mono x y (A + 1) (B + 1).
Proof. intros H H1. unfold mono. replace (Z.to_nat (A + 1)) with (1 + Z.to_nat A)%nat by lia. replace (Z.to_nat (B + 1)) with (1 + Z.to_nat B)%nat by lia. rewrite !pow_add. simpl. ring. Qed.
Lemma half_deriv th : derivable_pt_lim (fun t => t / 2) th (/ 2).
Proof. replace (/ 2) with (1 * / 2) by ring. apply (derivable_pt_lim_scal_right (fun t => t) th 1 (/ 2)). apply derivable_pt_lim_id. Qed.
Lemma cosh_deriv th : derivable_pt_lim (fun t => cos (t / 2)) th (- sin (th / 2) * / 2).
Proof. apply (derivable_pt_lim_comp (fun t => t / 2) cos th (/ 2) (- sin (th / 2))); [apply half_deriv|apply derivable_pt_lim_cos]. Qed.
Lemma sinh_deriv th : derivable_pt_lim (fun t => sin (t / 2)) th (cos (th / 2) * / 2).
Proof. apply (derivable_pt_lim_comp (fun t => t / 2) sin th (/ 2) (cos (th / 2))); [apply half_deriv|apply derivable_pt_lim_sin]. Qed.
Lemma pow_deriv f x d n : derivable_pt_lim f x d -> derivable_pt_lim (fun t => f t ^ n) x (INR n * f x ^ pred n * d).
Proof. intros H. apply (derivable_pt_lim_comp f (fun y => y ^ n) x d (INR n * f x ^ pred n)); auto. apply derivable_pt_lim_pow. Qed.
Lemma Wt_deriv l m s th i : derivable_pt_lim (fun t => Wt l m s t i) th (DWt l m s th i).
Proof.
  unfold Wt, DWt, mono. set (p := Z.to_nat _). set (q := Z.to_nat (eb m s (Z.of_nat i))). set (K := _ * Kc _ _ _ _).
  apply (derivable_pt_lim_scal (fun t => cos (t / 2) ^ p * sin (t / 2) ^ q) K th). 
  apply (derivable_pt_lim_mult (fun t => cos (t / 2) ^ p) (fun t => sin (t / 2) ^ q) th).
  - apply (pow_deriv (fun t => cos (t / 2))), cosh_deriv.
  - apply (pow_deriv (fun t => sin (t / 2))), sinh_deriv.
Qed.
Lemma Sig_deriv n (f : nat -> R -> R) (d : nat -> R) x : (forall i, derivable_pt_lim (f i) x (d i)) -> derivable_pt_lim (fun t => Sig n (fun i => f i t)) x (Sig n d).
Proof. intros H. induction n as [|n IH]; cbn [Sig]. { apply derivable_pt_lim_const. } apply (derivable_pt_lim_plus (fun t => Sig n (fun i => f i t)) (f n) x); auto. Qed.
Lemma W_deriv l m s th : derivable_pt_lim (W l m s) th (DW l m s th).
Proof. unfold W, DW. apply (Sig_deriv (top l) (fun i t => Wt l m s t i) (DWt l m s th) th). intros i. apply Wt_deriv. Qed.
Lemma sin_half th : sin th = 2 * (cos (th / 2) * sin (th / 2)).
Proof. replace th with (2 * (th / 2)) at 1 by field. rewrite sin_2a. ring. Qed.
Lemma cos_half th : cos th = cos (th / 2) * cos (th / 2) - sin (th / 2) * sin (th / 2).
Proof. replace th with (2 * (th / 2)) at 1 by field. apply cos_2a. Qed.
Lemma one_half th : cos (th / 2) * cos (th / 2) + sin (th / 2) * sin (th / 2) = 1.
Proof. assert (H := sin2_cos2 (th / 2)). unfold Rsqr in H. lra. Qed.
Lemma pred_pow n x : INR n * x ^ pred n * x = INR n * x ^ n.
Proof. destruct n; simpl; ring. Qed.
(** sin theta times the derivative of one summand *)
Lemma DWt_sin l m s th i : let c := cos (th / 2) in let y := sin (th / 2) in let k := Z.of_nat i in let a := ea l m s k in let b := eb m s k in
  sin th * DWt l m s th i = (-1) ^ i * Kc l m s k * (IZR b * (c * c * mono c y a b) - IZR a * (y * y * mono c y a b)).
Proof.
  intros c y k a b. unfold DWt. fold c y k a b. destruct (Kc_nz l m s k) as [E|H]. { rewrite E. ring. }
  assert (Ha : (0 <= a)%Z) by (unfold a, ea; lia). assert (Hb : (0 <= b)%Z) by (unfold b, eb; lia). rewrite sin_half. fold c y.
  assert (P := pred_pow (Z.to_nat a) c). assert (Q := pred_pow (Z.to_nat b) y).
  replace (IZR a) with (INR (Z.to_nat a)) by (rewrite INR_IZR_INZ; f_equal; lia). replace (IZR b) with (INR (Z.to_nat b)) by (rewrite INR_IZR_INZ; f_equal; lia). unfold mono.
  set (p := Z.to_nat a) in *. set (q := Z.to_nat b) in *.
  transitivity ((-1) ^ i * Kc l m s k * ((INR q * y ^ pred q * y) * (c * c * c ^ p) - (INR p * c ^ pred p * c) * (y * y * y ^ q))); [field|]. rewrite P, Q. ring.
Qed.
Lemma ladder_up_t l m s th : (- l - 1 <= s)%Z -> (0 <= l)%Z ->
  sin th * DW l m s th + (IZR m - IZR s * cos th) * W l m s th = - IZR (l + s + 1) * sin th * W l m (s + 1) th.
Proof.
  intros Hs Hl. set (c := cos (th / 2)). set (y := sin (th / 2)).
  set (U := fun i : nat => let k := Z.of_nat i in (-1) ^ i * (IZR k * Kc l m s k) * (2 * (c * c * mono c y (ea l m s k) (eb m s k)))).
  set (V := fun i : nat => let k := Z.of_nat i in (-1) ^ i * (IZR (l - s - k) * Kc l m s k) * (2 * (y * y * mono c y (ea l m s k) (eb m s k)))).
  transitivity (Sig (top l) (fun i => U i - V i)).
  - unfold DW, W. rewrite <- !Sig_scal, <- Sig_plus. apply Sig_ext. intros i _. rewrite DWt_sin. fold c y. unfold Wt. fold c y. cbv zeta. rewrite cos_half. fold c y.
    replace (IZR m) with (IZR m * (c * c + y * y)) by (unfold c, y; rewrite one_half; ring). unfold U, V. cbv zeta.
    unfold ea at 2, eb at 1. rewrite ?minus_IZR, ?plus_IZR, ?mult_IZR. set (M := mono _ _ _ _). set (K := Kc _ _ _ _). rewrite ?minus_IZR. ring.
  - rewrite Sig_minus. unfold top. replace (Z.to_nat (2 * l + 3)) with (S (Z.to_nat (2 * l + 2))) by lia. set (n := Z.to_nat (2 * l + 2)).
    rewrite (Sig_S_l n U). replace (U 0%nat) with 0 by (unfold U; cbn [Z.of_nat]; ring).
    rewrite (Sig_S n V). assert (Vn : V n = 0). { unfold V. replace (Kc l m s (Z.of_nat n)) with 0; [ring|]. destruct (Kc_nz l m s (Z.of_nat n)) as [E|E]; [now rewrite E|]. unfold n in E. lia. } rewrite Vn.
    unfold W, top. replace (Z.to_nat (2 * l + 3)) with (S n) by lia. rewrite (Sig_S n (Wt l m (s + 1) th)).
    assert (Wn : Wt l m (s + 1) th n = 0). { unfold Wt. replace (Kc l m (s + 1) (Z.of_nat n)) with 0; [ring|]. destruct (Kc_nz l m (s + 1) (Z.of_nat n)) as [E|E]; [now rewrite E|]. unfold n in E. lia. } rewrite Wn.
    transitivity (Sig n (fun i => U (S i) - V i)); [rewrite Sig_minus; ring|]. transitivity (- IZR (l + s + 1) * sin th * Sig n (Wt l m (s + 1) th)); [|ring]. rewrite <- Sig_scal. apply Sig_ext. intros i _.
    unfold U, V, Wt. cbv zeta. rewrite Nat2Z.inj_succ. unfold Z.succ. set (k := Z.of_nat i). rewrite sin_half. fold c y. cbn [pow].
    assert (E1 : IZR (k + 1) * Kc l m s (k + 1) = IZR (l + m - k) * (ifact (l + m - k) * ifact (l - (s + 1) - k) * ifact k * ifact (k + (s + 1) - m))).
    { unfold Kc. replace (l + m - (k + 1))%Z with (l + m - k - 1)%Z by ring. replace (l - s - (k + 1))%Z with (l - (s + 1) - k)%Z by ring. replace (k + 1 + s - m)%Z with (k + (s + 1) - m)%Z by ring.
      rewrite <- (ifact_step (l + m - k)). transitivity ((IZR (k + 1) * ifact (k + 1)) * (IZR (l + m - k) * ifact (l + m - k) * ifact (l - (s + 1) - k) * ifact (k + (s + 1) - m))); [ring|]. rewrite ifact_step. replace (k + 1 - 1)%Z with k by ring. ring. }
    assert (E2 : IZR (l - s - k) * Kc l m s k = IZR (k + (s + 1) - m) * (ifact (l + m - k) * ifact (l - (s + 1) - k) * ifact k * ifact (k + (s + 1) - m))).
    { unfold Kc. transitivity ((IZR (l - s - k) * ifact (l - s - k)) * (ifact (l + m - k) * ifact k * ifact (k + s - m))); [ring|]. rewrite ifact_step. replace (k + s - m)%Z with (k + (s + 1) - m - 1)%Z by ring. rewrite <- (ifact_step (k + (s + 1) - m)).
      replace (l - s - k - 1)%Z with (l - (s + 1) - k)%Z by ring. ring. }
    rewrite E1, E2. fold (Kc l m (s + 1) k). destruct (Kc_nz l m (s + 1) k) as [E|H]. { rewrite E. ring. }
    assert (X1 : mono c y (ea l m s k) (eb m s k + 2) = mono c y (ea l m (s + 1) k + 1) (eb m (s + 1) k + 1)) by (f_equal; unfold ea, eb; ring).
    transitivity (- (-1) ^ i * Kc l m (s + 1) k * 2 * ((IZR (l + m - k) + IZR (k + (s + 1) - m)) * mono c y (ea l m (s + 1) k + 1) (eb m (s + 1) k + 1))).
    + assert (T1 : IZR (k + (s + 1) - m) * (y * y * mono c y (ea l m s k) (eb m s k)) = IZR (k + (s + 1) - m) * mono c y (ea l m (s + 1) k + 1) (eb m (s + 1) k + 1)).
      { destruct (Z.eq_dec (k + (s + 1) - m) 0) as [Z0|Z0]. { rewrite Z0. ring. } rewrite (mono_y c y (ea l m s k)) by (unfold eb; lia). now rewrite X1. }
      assert (T2 : IZR (l + m - k) * (c * c * mono c y (ea l m s (k + 1)) (eb m s (k + 1))) = IZR (l + m - k) * mono c y (ea l m (s + 1) k + 1) (eb m (s + 1) k + 1)).
      { destruct (Z.eq_dec (l + m - k) 0) as [Z0|Z0]. { rewrite Z0. ring. } rewrite (mono_x c y (ea l m s (k + 1))) by (unfold ea; lia). f_equal. f_equal; unfold ea, eb; ring. }
      transitivity (- (-1) ^ i * Kc l m (s + 1) k * 2 * (IZR (l + m - k) * (c * c * mono c y (ea l m s (k + 1)) (eb m s (k + 1))) + IZR (k + (s + 1) - m) * (y * y * mono c y (ea l m s k) (eb m s k)))); [ring|]. rewrite T1, T2. ring.
    + rewrite <- plus_IZR. replace (l + m - k + (k + (s + 1) - m))%Z with (l + s + 1)%Z by ring.
      rewrite <- (mono_xy c y (ea l m (s + 1) k) (eb m (s + 1) k)) by (unfold ea, eb; lia). ring.
Qed.

Lemma ladder_down_t l m s th : (- l <= s)%Z -> (0 <= l)%Z ->
  sin th * DW l m s th - (IZR m - IZR s * cos th) * W l m s th = IZR (l - s + 1) * sin th * W l m (s - 1) th.
Proof.
  intros Hs Hl. set (c := cos (th / 2)). set (y := sin (th / 2)).
  set (U := fun i : nat => let k := Z.of_nat i in (-1) ^ i * (IZR (k + s - m) * Kc l m s k) * (2 * (c * c * mono c y (ea l m s k) (eb m s k)))).
  set (V := fun i : nat => let k := Z.of_nat i in (-1) ^ i * (IZR (l + m - k) * Kc l m s k) * (2 * (y * y * mono c y (ea l m s k) (eb m s k)))).
  transitivity (Sig (top l) (fun i => U i - V i)).
  - unfold DW, W. rewrite <- !Sig_scal, <- Sig_minus. apply Sig_ext. intros i _. rewrite DWt_sin. fold c y. unfold Wt. fold c y. cbv zeta. rewrite cos_half. fold c y.
    replace (IZR m) with (IZR m * (c * c + y * y)) by (unfold c, y; rewrite one_half; ring). unfold U, V. cbv zeta.
    unfold ea at 2, eb at 1. rewrite ?minus_IZR, ?plus_IZR, ?mult_IZR. set (M := mono _ _ _ _). set (K := Kc _ _ _ _). rewrite ?minus_IZR, ?plus_IZR. ring.
  - rewrite Sig_minus. unfold top. replace (Z.to_nat (2 * l + 3)) with (S (Z.to_nat (2 * l + 2))) by lia. set (n := Z.to_nat (2 * l + 2)).
    rewrite (Sig_S_l n U). 
    rewrite (Sig_S n V). assert (Vn : V n = 0). { unfold V. replace (Kc l m s (Z.of_nat n)) with 0; [ring|]. destruct (Kc_nz l m s (Z.of_nat n)) as [E|E]; [now rewrite E|]. unfold n in E. lia. } rewrite Vn.
    unfold W, top. replace (Z.to_nat (2 * l + 3)) with (S n) by lia. rewrite (Sig_S_l n (Wt l m (s - 1) th)).
    assert (E0 : forall k, IZR (k + s - m) * Kc l m s k = IZR (l - (s - 1) - k) * Kc l m (s - 1) k).
    { intros k. unfold Kc. transitivity ((IZR (k + s - m) * ifact (k + s - m)) * (ifact (l + m - k) * ifact (l - s - k) * ifact k)); [ring|]. rewrite ifact_step. replace (k + s - m - 1)%Z with (k + (s - 1) - m)%Z by ring.
      replace (l - s - k)%Z with (l - (s - 1) - k - 1)%Z by ring. rewrite <- (ifact_step (l - (s - 1) - k)). ring. }
    assert (T1 : forall k, IZR (l - (s - 1) - k) * Kc l m (s - 1) k * (2 * (c * c * mono c y (ea l m s k) (eb m s k))) = IZR (l - (s - 1) - k) * Kc l m (s - 1) k * (sin th * mono c y (ea l m (s - 1) k) (eb m (s - 1) k))).
    { intros k. destruct (Kc_nz l m (s - 1) k) as [E|H]. { rewrite E. ring. } destruct (Z.eq_dec (l - (s - 1) - k) 0) as [Z0|Z0]. { rewrite Z0. ring. }
      rewrite (mono_x c y (ea l m s k)) by (unfold ea; lia). rewrite sin_half. fold c y. f_equal. transitivity (2 * (c * y * mono c y (ea l m (s - 1) k) (eb m (s - 1) k))); [|ring]. rewrite mono_xy by (unfold ea, eb; lia). f_equal. f_equal; unfold ea, eb; ring. }
    assert (U0 : U 0%nat = IZR (l - s + 1) * sin th * Wt l m (s - 1) th 0).
    { unfold U, Wt. cbv zeta. fold c y. cbn [Z.of_nat pow]. rewrite E0. transitivity (1 * (IZR (l - (s - 1) - 0) * Kc l m (s - 1) 0 * (2 * (c * c * mono c y (ea l m s 0) (eb m s 0))))); [ring|]. rewrite T1. replace (l - (s - 1) - 0)%Z with (l - s + 1)%Z by ring. ring. }
    rewrite U0. transitivity (IZR (l - s + 1) * sin th * Wt l m (s - 1) th 0 + Sig n (fun i => U (S i) - V i)); [rewrite Sig_minus; ring|].
    transitivity (IZR (l - s + 1) * sin th * Wt l m (s - 1) th 0 + IZR (l - s + 1) * sin th * Sig n (fun i => Wt l m (s - 1) th (S i))); [|ring]. f_equal. rewrite <- Sig_scal. apply Sig_ext. intros i _.
    unfold U, V, Wt. cbv zeta. rewrite Nat2Z.inj_succ. unfold Z.succ. set (k := Z.of_nat i). fold c y. cbn [pow].
    assert (E1 : IZR (l + m - k) * Kc l m s k = IZR (k + 1) * Kc l m (s - 1) (k + 1)).
    { unfold Kc. transitivity ((IZR (l + m - k) * ifact (l + m - k)) * (ifact (l - s - k) * ifact k * ifact (k + s - m))); [ring|]. rewrite ifact_step. replace k with (k + 1 - 1)%Z at 3 by ring. rewrite <- (ifact_step (k + 1)).
      replace (l + m - k - 1)%Z with (l + m - (k + 1))%Z by ring. replace (l - (s - 1) - (k + 1))%Z with (l - s - k)%Z by ring. replace (k + 1 + (s - 1) - m)%Z with (k + s - m)%Z by ring. ring. }
    assert (T2 : IZR (k + 1) * Kc l m (s - 1) (k + 1) * (2 * (y * y * mono c y (ea l m s k) (eb m s k))) = IZR (k + 1) * Kc l m (s - 1) (k + 1) * (sin th * mono c y (ea l m (s - 1) (k + 1)) (eb m (s - 1) (k + 1)))).
    { destruct (Kc_nz l m (s - 1) (k + 1)) as [E|H]. { rewrite E. ring. } rewrite (mono_y c y (ea l m s k)) by (unfold eb, k in *; lia). rewrite sin_half. fold c y. f_equal. transitivity (2 * (c * y * mono c y (ea l m (s - 1) (k + 1)) (eb m (s - 1) (k + 1)))); [|ring].
      rewrite mono_xy by (unfold ea, eb; lia). f_equal. f_equal; unfold ea, eb; ring. }
    rewrite E0, E1. transitivity (- (-1) ^ i * (IZR (l - (s - 1) - (k + 1)) * Kc l m (s - 1) (k + 1) * (2 * (c * c * mono c y (ea l m s (k + 1)) (eb m s (k + 1)))) + IZR (k + 1) * Kc l m (s - 1) (k + 1) * (2 * (y * y * mono c y (ea l m s k) (eb m s k))))); [ring|].
    rewrite T1, T2. replace (l - s + 1)%Z with ((l - (s - 1) - (k + 1)) + (k + 1))%Z by ring. rewrite (plus_IZR (l - (s - 1) - (k + 1))). ring.
Qed.
(** beyond the ends of the ladder *)
Lemma W_above l m s th : (l < s)%Z -> W l m s th = 0.
Proof. intros H. unfold W. apply Sig_zero. intros i _. unfold Wt. destruct (Kc_nz l m s (Z.of_nat i)) as [E|E]; [rewrite E; ring|lia]. Qed.
Lemma W_below l m s th : (s < - l)%Z -> W l m s th = 0.
Proof. intros H. unfold W. apply Sig_zero. intros i _. unfold Wt. destruct (Kc_nz l m s (Z.of_nat i)) as [E|E]; [rewrite E; ring|lia]. Qed.
(** the normalised function *)
Definition Nrm (l m s : Z) : R := sqrt (zfact (l + m) * zfact (l - m) * zfact (l + s) * zfact (l - s)).
Definition dd (l m s : Z) (th : R) : R := Nrm l m s * W l m s th.
Definition Ddd (l m s : Z) (th : R) : R := Nrm l m s * DW l m s th.
Lemma dd_deriv l m s th : derivable_pt_lim (dd l m s) th (Ddd l m s th).
Proof. unfold dd, Ddd. apply (derivable_pt_lim_scal (W l m s)), W_deriv. Qed.
Definition lam (l s : Z) : R := sqrt (IZR (l - s) * IZR (l + s + 1)).
Lemma Nrm_pos l m s : 0 <= zfact (l + m) * zfact (l - m) * zfact (l + s) * zfact (l - s).
Proof. repeat apply Rmult_le_pos; left; apply zfact_pos. Qed.
Lemma Nrm_up l m s : (- l <= s < l)%Z -> IZR (l + s + 1) * Nrm l m s = lam l s * Nrm l m (s + 1).
Proof.
  intros H. unfold lam, Nrm. assert (P1 : 0 <= IZR (l - s)) by (apply IZR_le; lia). assert (P2 : 0 <= IZR (l + s + 1)) by (apply IZR_le; lia).
  rewrite <- sqrt_mult by (auto using Nrm_pos, Rmult_le_pos). rewrite <- (sqrt_square (IZR (l + s + 1))) at 1 by auto. rewrite <- sqrt_mult by (auto using Nrm_pos, Rmult_le_pos). f_equal.
  rewrite (zfact_S (l + (s + 1))) by lia. replace (l + (s + 1) - 1)%Z with (l + s)%Z by ring. rewrite (zfact_S (l - s)) by lia. replace (l - s - 1)%Z with (l - (s + 1))%Z by ring. replace (l + (s + 1))%Z with (l + s + 1)%Z by ring. ring.
Qed.
Lemma Nrm_down l m s : (- l <= s < l)%Z -> IZR (l - s) * Nrm l m (s + 1) = lam l s * Nrm l m s.
Proof.
  intros H. unfold lam, Nrm. assert (P1 : 0 <= IZR (l - s)) by (apply IZR_le; lia). assert (P2 : 0 <= IZR (l + s + 1)) by (apply IZR_le; lia).
  rewrite <- sqrt_mult by (auto using Nrm_pos, Rmult_le_pos). rewrite <- (sqrt_square (IZR (l - s))) at 1 by auto. rewrite <- sqrt_mult by (auto using Nrm_pos, Rmult_le_pos). f_equal.
  rewrite (zfact_S (l + (s + 1))) by lia. replace (l + (s + 1) - 1)%Z with (l + s)%Z by ring. rewrite (zfact_S (l - s)) by lia. replace (l - s - 1)%Z with (l - (s + 1))%Z by ring. replace (l + (s + 1))%Z with (l + s + 1)%Z by ring. ring.
Qed.
(** raising and lowering s, for s from -l to l *)
Lemma raise l m s th : (- l <= s <= l)%Z -> sin th * Ddd l m s th + (IZR m - IZR s * cos th) * dd l m s th = - lam l s * sin th * dd l m (s + 1) th.
Proof.
  intros H. unfold Ddd, dd. transitivity (Nrm l m s * (sin th * DW l m s th + (IZR m - IZR s * cos th) * W l m s th)); [ring|]. rewrite ladder_up_t by lia.
  destruct (Z.eq_dec s l) as [->|N]. { rewrite W_above by lia. ring. } transitivity (- (IZR (l + s + 1) * Nrm l m s) * sin th * W l m (s + 1) th); [ring|]. rewrite Nrm_up by lia. ring.
Qed.
Lemma lower l m s th : (- l <= s <= l)%Z -> sin th * Ddd l m s th - (IZR m - IZR s * cos th) * dd l m s th = lam l (s - 1) * sin th * dd l m (s - 1) th.
Proof.
  intros H. unfold Ddd, dd. transitivity (Nrm l m s * (sin th * DW l m s th - (IZR m - IZR s * cos th) * W l m s th)); [ring|]. rewrite ladder_down_t by lia.
  destruct (Z.eq_dec s (- l)) as [->|N]. { rewrite (W_below l m (- l - 1)) by lia. ring. } transitivity ((IZR (l - (s - 1)) * Nrm l m (s - 1 + 1)) * sin th * W l m (s - 1) th). { replace (s - 1 + 1)%Z with s by ring. replace (l - (s - 1))%Z with (l - s + 1)%Z by ring. ring. } rewrite Nrm_down by lia. ring.
Qed.

Lemma DW_above l m s th : (l < s)%Z -> DW l m s th = 0.
Proof. intros H. unfold DW. apply Sig_zero. intros i _. unfold DWt. destruct (Kc_nz l m s (Z.of_nat i)) as [E|E]; [rewrite E; ring|lia]. Qed.
Lemma lam_top l : lam l l = 0.
Proof. unfold lam. replace (l - l)%Z with 0%Z by ring. rewrite Rmult_0_l. apply sqrt_0. Qed.
Lemma lower' l m s th : (- l <= s <= l)%Z -> sin th * Ddd l m (s + 1) th - (IZR m - IZR (s + 1) * cos th) * dd l m (s + 1) th = lam l s * sin th * dd l m s th.
Proof.
  intros H. destruct (Z.eq_dec s l) as [->|N].
  - unfold dd, Ddd. rewrite DW_above, W_above, lam_top by lia. ring.
  - rewrite lower by lia. replace (s + 1 - 1)%Z with s by ring. reflexivity.
Qed.
(** d/dtheta (sin theta d_{s+1} d'_s) *)
Definition flux (l l' m s : Z) (th : R) : R := sin th * (dd l m (s + 1) th * dd l' m s th).
Lemma flux_deriv l l' m s th : (- l <= s <= l)%Z -> (- l' <= s <= l')%Z ->
  derivable_pt_lim (flux l l' m s) th (lam l s * (sin th * (dd l m s th * dd l' m s th)) - lam l' s * (sin th * (dd l m (s + 1) th * dd l' m (s + 1) th))).
Proof.
  intros H H'. unfold flux. replace (lam l s * _ - _) with (cos th * (dd l m (s + 1) th * dd l' m s th) + sin th * (Ddd l m (s + 1) th * dd l' m s th + dd l m (s + 1) th * Ddd l' m s th)).
  - apply (derivable_pt_lim_mult sin (fun t => dd l m (s + 1) t * dd l' m s t) th). { apply derivable_pt_lim_sin. } apply (derivable_pt_lim_mult (dd l m (s + 1)) (dd l' m s) th); apply dd_deriv.
  - assert (A := lower' l m s th H). assert (B := raise l' m s th H').
    transitivity (cos th * (dd l m (s + 1) th * dd l' m s th) + (sin th * Ddd l m (s + 1) th) * dd l' m s th + dd l m (s + 1) th * (sin th * Ddd l' m s th)); [ring|].
    replace (sin th * Ddd l m (s + 1) th) with (lam l s * sin th * dd l m s th + (IZR m - IZR (s + 1) * cos th) * dd l m (s + 1) th) by (rewrite <- A; ring).
    replace (sin th * Ddd l' m s th) with (- lam l' s * sin th * dd l' m (s + 1) th - (IZR m - IZR s * cos th) * dd l' m s th) by (rewrite <- B; ring). rewrite plus_IZR. ring.
Qed.
Lemma flux_0 l l' m s : flux l l' m s 0 = 0. Proof. unfold flux. rewrite sin_0. ring. Qed.
Lemma flux_PI l l' m s : flux l l' m s PI = 0. Proof. unfold flux. rewrite sin_PI. ring. Qed.
(** integrals *)
Lemma int_ext f g a b x y : (forall t, f t = g t) -> x = y -> integral f a b x -> integral g a b y.
Proof. intros E <- (G & HG & V). exists G. split; auto. intros X. rewrite <- E. apply HG. Qed.
Lemma int_lin f g a b x y p q : integral f a b x -> integral g a b y -> integral (fun t => p * f t + q * g t) a b (p * x + q * y).
Proof.
  intros (G & HG & VG) (H & HH & VH). exists (fun t => p * G t + q * H t). split; [|subst; ring]. intros X.
  apply (derivable_pt_lim_plus (fun t => p * G t) (fun t => q * H t) X); [apply (derivable_pt_lim_scal G)|apply (derivable_pt_lim_scal H)]; auto.
Qed.
Lemma int_scal f a b x p : integral f a b x -> integral (fun t => p * f t) a b (p * x).
Proof. intros (G & HG & VG). exists (fun t => p * G t). split; [|subst; ring]. intros X. apply (derivable_pt_lim_scal G); auto. Qed.
Definition prd (l l' m s : Z) (th : R) : R := sin th * (dd l m s th * dd l' m s th).
Lemma flux_int l l' m s : (- l <= s <= l)%Z -> (- l' <= s <= l')%Z -> integral (fun th => lam l s * prd l l' m s th - lam l' s * prd l l' m (s + 1) th) 0 PI 0.
Proof. intros H H'. exists (flux l l' m s). split; [|rewrite flux_0, flux_PI; ring]. intros th. now apply flux_deriv. Qed.
Lemma lam_sq l s : (- l <= s <= l)%Z -> lam l s * lam l s = IZR (l * (l + 1) - s * (s + 1)).
Proof. intros H. unfold lam. rewrite sqrt_sqrt. { rewrite <- mult_IZR. f_equal. ring. } rewrite <- mult_IZR. apply IZR_le. nia. Qed.
Lemma orth l l' m s : l <> l' -> (- l <= s <= l)%Z -> (- l' <= s <= l')%Z -> integral (prd l l' m s) 0 PI 0.
Proof.
  intros N H H'. assert (A := flux_int l l' m s H H'). assert (B := flux_int l' l m s H' H).
  assert (Dn : lam l s * lam l s - lam l' s * lam l' s <> 0). { rewrite !lam_sq by auto. rewrite <- minus_IZR. apply not_0_IZR. nia. }
  set (Dl := lam l s * lam l s - lam l' s * lam l' s) in *.
  refine (int_ext _ _ 0 PI _ _ _ _ (int_lin _ _ 0 PI 0 0 (lam l s / Dl) (- (lam l' s / Dl)) A B)); [|field; auto].
  intros t. unfold prd. unfold Dl in *. field. auto.
Qed.
Lemma norm_down l m s x : (- l <= s < l)%Z -> integral (prd l l m (s + 1)) 0 PI x -> integral (prd l l m s) 0 PI x.
Proof.
  intros H I. assert (A := flux_int l l m s ltac:(lia) ltac:(lia)). assert (P : 0 < lam l s). { unfold lam. apply sqrt_lt_R0. rewrite <- mult_IZR. apply IZR_lt. nia. }
  refine (int_ext _ _ 0 PI _ _ _ _ (int_lin _ _ 0 PI 0 x (/ lam l s) 1 A I)); [|ring]. intros t. field. lra.
Qed.
(** the beta integral *)
Lemma beta_int q : forall p, integral (fun th => sin th * (cos (th / 2) ^ (2 * p) * sin (th / 2) ^ (2 * q))) 0 PI (2 * INR (fact p) * INR (fact q) / INR (fact (p + q + 1))).
Proof.
  assert (Z2 : sin (0 / 2) = 0) by (replace (0 / 2) with 0 by field; apply sin_0). assert (Zp : cos (PI / 2) = 0) by apply cos_PI2. assert (Z1 : cos (0 / 2) = 1) by (replace (0 / 2) with 0 by field; apply cos_0).
  induction q as [|q IH]; intros p.
  - exists (fun th => - (2 / INR (S p)) * cos (th / 2) ^ (2 * S p)). assert (Pp : 0 < INR (S p)) by (apply lt_0_INR; lia). split.
    + intros th. replace (sin th * _) with (- (2 / INR (S p)) * (INR (2 * S p) * cos (th / 2) ^ pred (2 * S p) * (- sin (th / 2) * / 2))).
      * apply (derivable_pt_lim_scal (fun t => cos (t / 2) ^ (2 * S p))). apply (pow_deriv (fun t => cos (t / 2))), cosh_deriv.
      * rewrite (sin_half th). rewrite mult_INR. replace (pred (2 * S p)) with (S (2 * p)) by lia. replace (INR 2) with 2 by (simpl; ring). cbn [pow]. replace (2 * 0)%nat with 0%nat by lia. cbn [pow]. field. lra.
    + rewrite Zp, Z1, pow1, pow_i by lia. replace (p + 0 + 1)%nat with (S p) by lia. rewrite fact_simpl, mult_INR. change (INR (fact 0)) with 1. field. split; [lra|]. apply INR_fact_neq_0.
  - assert (A : integral (fun th => INR (S q) * (sin th * (cos (th / 2) ^ (2 * S p) * sin (th / 2) ^ (2 * q))) - INR (S p) * (sin th * (cos (th / 2) ^ (2 * p) * sin (th / 2) ^ (2 * S q)))) 0 PI 0).
    { exists (fun th => 2 * (cos (th / 2) ^ (2 * S p) * sin (th / 2) ^ (2 * S q))). split; [|rewrite Zp, Z2, !pow_i by lia; ring]. intros th.
      match goal with |- derivable_pt_lim _ _ ?v => replace v with (2 * ((INR (2 * S p) * cos (th / 2) ^ pred (2 * S p) * (- sin (th / 2) * / 2)) * sin (th / 2) ^ (2 * S q) + cos (th / 2) ^ (2 * S p) * (INR (2 * S q) * sin (th / 2) ^ pred (2 * S q) * (cos (th / 2) * / 2)))) end.
      - apply (derivable_pt_lim_scal (fun t => cos (t / 2) ^ (2 * S p) * sin (t / 2) ^ (2 * S q))). apply (derivable_pt_lim_mult (fun t => cos (t / 2) ^ (2 * S p)) (fun t => sin (t / 2) ^ (2 * S q))).
        + apply (pow_deriv (fun t => cos (t / 2))), cosh_deriv. + apply (pow_deriv (fun t => sin (t / 2))), sinh_deriv.
      - rewrite (sin_half th). rewrite !(mult_INR 2). replace (pred (2 * S p)) with (S (2 * p)) by lia. replace (pred (2 * S q)) with (S (2 * q)) by lia. replace (2 * S p)%nat with (S (S (2 * p))) by lia. replace (2 * S q)%nat with (S (S (2 * q))) by lia. replace (INR 2) with 2 by (simpl; ring). cbn [pow]. field. }
    assert (Pp : 0 < INR (S p)) by (apply lt_0_INR; lia). assert (B := IH (S p)).
    refine (int_ext _ _ 0 PI _ _ _ _ (int_lin _ _ 0 PI _ _ (- / INR (S p)) (INR (S q) / INR (S p)) A B)).
    + intros t. field. lra.
    + replace (S p + q + 1)%nat with (p + S q + 1)%nat by lia. rewrite (fact_simpl p), (fact_simpl q), !mult_INR. field. split; [apply INR_fact_neq_0|lra].
Qed.
Lemma norm_top l m : (- l <= m <= l)%Z -> integral (prd l l m l) 0 PI (2 / IZR (2 * l + 1)).
Proof.
  intros H. set (p := Z.to_nat (l + m)). set (q := Z.to_nat (l - m)).
  assert (E : forall th, dd l m l th = Nrm l m l * (/ (INR (fact p) * INR (fact q)) * (cos (th / 2) ^ p * sin (th / 2) ^ q))).
  { intros th. unfold dd. f_equal. unfold W. rewrite (Sig_single (top l) 0); [| |].
    - unfold Wt, Kc, mono. change (Z.of_nat 0) with 0%Z. replace (l + m - 0)%Z with (l + m)%Z by ring. replace (l - l - 0)%Z with 0%Z by ring. replace (0 + l - m)%Z with (l - m)%Z by ring. rewrite !ifact_nn by lia. unfold ea, eb. replace (2 * l + m - l - 2 * 0)%Z with (l + m)%Z by ring. replace (2 * 0 + l - m)%Z with (l - m)%Z by ring.
      unfold zfact. fold p q. change (Z.to_nat 0) with 0%nat. change (INR (fact 0)) with 1. cbn [pow]. field. split; apply INR_fact_neq_0.
    - unfold top. lia.
    - intros i _ N. unfold Wt. destruct (Kc_nz l m l (Z.of_nat i)) as [K|K]; [rewrite K; ring|lia]. }
  refine (int_ext _ _ 0 PI _ _ _ _ (int_scal _ 0 PI _ (Nrm l m l * Nrm l m l * (/ (INR (fact p) * INR (fact q)) * / (INR (fact p) * INR (fact q)))) (beta_int q p))).
  - intros t. unfold prd. rewrite !E. replace (2 * p)%nat with (p + p)%nat by lia. replace (2 * q)%nat with (q + q)%nat by lia. rewrite !pow_add. ring.
  - unfold Nrm. rewrite sqrt_sqrt by apply Nrm_pos. unfold zfact. fold p q. replace (l - l)%Z with 0%Z by ring. change (Z.to_nat 0) with 0%nat. change (INR (fact 0)) with 1.
    replace (p + q + 1)%nat with (S (Z.to_nat (l + l))) by (unfold p, q; lia). rewrite (fact_simpl (Z.to_nat (l + l))), mult_INR. replace (INR (S (Z.to_nat (l + l)))) with (IZR (2 * l + 1)) by (rewrite INR_IZR_INZ; f_equal; lia).
    field. repeat split; try apply INR_fact_neq_0. apply not_0_IZR. lia.
Qed.
Lemma norm l m s : (- l <= m <= l)%Z -> (- l <= s <= l)%Z -> integral (prd l l m s) 0 PI (2 / IZR (2 * l + 1)).
Proof.
  intros H Hs. replace s with (l - Z.of_nat (Z.to_nat (l - s)))%Z by lia. assert (B : (Z.of_nat (Z.to_nat (l - s)) <= 2 * l)%Z) by lia. revert B. generalize (Z.to_nat (l - s)). induction n as [|n IH]; intros B.
  - replace (l - Z.of_nat 0)%Z with l by lia. now apply norm_top.
  - apply norm_down; [lia|]. replace (l - Z.of_nat (S n) + 1)%Z with (l - Z.of_nat n)%Z by lia. apply IH. lia.
Qed.
