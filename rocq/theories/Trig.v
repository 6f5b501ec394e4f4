(** Finite trigonometric sums.  Mathematical vocabulary of the spectral properties; no code is modelled here. *)
From Verif Require Export Rsum.
Local Open Scope R_scope.

Lemma cos_nPI k : cos (INR k * PI) = (-1) ^ k.
Proof.
  induction k as [|k IH]. { simpl. rewrite Rmult_0_l. apply cos_0. }
  rewrite S_INR. replace ((INR k + 1) * PI) with (INR k * PI + PI) by ring. rewrite neg_cos, IH. simpl. ring.
Qed.
Lemma sin_nPI k : sin (INR k * PI) = 0.
Proof.
  induction k as [|k IH]. { simpl. rewrite Rmult_0_l. apply sin_0. }
  rewrite S_INR. replace ((INR k + 1) * PI) with (INR k * PI + PI) by ring. rewrite neg_sin, IH. ring.
Qed.
Lemma cos_plus_nPI x k : cos (x + INR k * PI) = (-1) ^ k * cos x.
Proof. rewrite cos_plus, cos_nPI, sin_nPI. ring. Qed.
Lemma sin_plus_nPI x k : sin (x + INR k * PI) = (-1) ^ k * sin x.
Proof. rewrite sin_plus, cos_nPI, sin_nPI. ring. Qed.
Lemma cos_plus_2nPI x k : cos (x + 2 * INR k * PI) = cos x.
Proof. apply cos_period. Qed.
Lemma sin_plus_2nPI x k : sin (x + 2 * INR k * PI) = sin x.
Proof. apply sin_period. Qed.
Lemma pow_m1_sqr k : (-1) ^ k * (-1) ^ k = 1.
Proof. rewrite <- Rpow_mult_distr. replace (-1 * -1) with 1 by ring. apply pow1. Qed.
Lemma pow_m1_double k : (-1) ^ (2 * k) = 1.
Proof. rewrite pow_mult. replace ((-1) ^ 2) with 1 by ring. apply pow1. Qed.

Lemma cos_cos_prod a b : cos a * cos b = (cos (a - b) + cos (a + b)) / 2.
Proof. rewrite cos_minus, cos_plus. field. Qed.
Lemma sin_sin_prod a b : sin a * sin b = (cos (a - b) - cos (a + b)) / 2.
Proof. rewrite cos_minus, cos_plus. field. Qed.
Lemma sin_cos_prod a b : sin a * cos b = (sin (a - b) + sin (a + b)) / 2.
Proof. rewrite sin_minus, sin_plus. field. Qed.

(** Dirichlet sums in product form *)
Lemma sum_cos_prog n a t : 2 * sin (t / 2) * Sig n (fun k => cos (a + INR k * t)) = sin (a + (INR n - / 2) * t) - sin (a - t / 2).
Proof.
  induction n as [|n IH]. { simpl. replace (a + (0 - / 2) * t) with (a - t / 2) by field. ring. }
  rewrite Sig_S, Rmult_plus_distr_l, IH. rewrite S_INR.
  replace (a + (INR n + 1 - / 2) * t) with (a + INR n * t + t / 2) by field. replace (a + (INR n - / 2) * t) with (a + INR n * t - t / 2) by field.
  rewrite (sin_plus (a + INR n * t)), (sin_minus (a + INR n * t)). ring.
Qed.
Lemma sum_sin_prog n a t : 2 * sin (t / 2) * Sig n (fun k => sin (a + INR k * t)) = cos (a - t / 2) - cos (a + (INR n - / 2) * t).
Proof.
  induction n as [|n IH]. { simpl. replace (a + (0 - / 2) * t) with (a - t / 2) by field. ring. }
  rewrite Sig_S, Rmult_plus_distr_l, IH. rewrite S_INR.
  replace (a + (INR n + 1 - / 2) * t) with (a + INR n * t + t / 2) by field. replace (a + (INR n - / 2) * t) with (a + INR n * t - t / 2) by field.
  rewrite (cos_plus (a + INR n * t)), (cos_minus (a + INR n * t)). ring.
Qed.
(** 1/2 + cos t + ... + cos (n-1)t *)
Lemma dirichlet n t : (1 <= n)%nat -> 2 * sin (t / 2) * (/ 2 + Sig (n - 1) (fun k => cos (INR (k + 1) * t))) = sin ((INR n - / 2) * t).
Proof.
  intros H. assert (E : Sig (n - 1) (fun k => cos (INR (k + 1) * t)) = Sig (n - 1) (fun k => cos (t + INR k * t))).
  { apply Sig_ext. intros k _. f_equal. rewrite plus_INR. simpl. ring. }
  rewrite E, Rmult_plus_distr_l, sum_cos_prog. rewrite minus_INR by auto. simpl INR.
  replace (t + (INR n - 1 - / 2) * t) with ((INR n - / 2) * t) by field. replace (t - t / 2) with (t / 2) by field. field.
Qed.

Lemma sin_frac_pos m N : (0 < m < N)%nat -> 0 < sin (INR m * PI / INR N).
Proof.
  intros [H1 H2]. pose proof PI_RGT_0. assert (0 < INR m) by (apply lt_0_INR; lia). assert (INR m < INR N) by (apply lt_INR; lia).
  apply sin_gt_0.
  - apply Rdiv_lt_0_compat; nra.
  - apply (Rmult_lt_reg_r (INR N)); [lra|]. replace (INR m * PI / INR N * INR N) with (INR m * PI) by (field; lra). nra.
Qed.

(** sums over a full period of N equidistant points *)
Lemma period_cos N m a : (0 < m < N)%nat -> Sig N (fun k => cos (a + INR k * (2 * INR m * PI / INR N))) = 0.
Proof.
  intros H. assert (N0 : INR N <> 0) by (apply not_0_INR; lia). pose proof (sin_frac_pos m N H) as S0. set (t := 2 * INR m * PI / INR N).
  assert (T : t / 2 = INR m * PI / INR N) by (unfold t; field; auto).
  pose proof (sum_cos_prog N a t) as E. rewrite T in E.
  replace (a + (INR N - / 2) * t) with (a - INR m * PI / INR N + 2 * INR m * PI) in E by (unfold t; field; auto). rewrite sin_plus_2nPI in E.
  apply (Rmult_eq_reg_l (2 * sin (INR m * PI / INR N))); lra.
Qed.
Lemma period_sin N m a : (0 < m < N)%nat -> Sig N (fun k => sin (a + INR k * (2 * INR m * PI / INR N))) = 0.
Proof.
  intros H. assert (N0 : INR N <> 0) by (apply not_0_INR; lia). pose proof (sin_frac_pos m N H) as S0. set (t := 2 * INR m * PI / INR N).
  assert (T : t / 2 = INR m * PI / INR N) by (unfold t; field; auto).
  pose proof (sum_sin_prog N a t) as E. rewrite T in E.
  replace (a + (INR N - / 2) * t) with (a - INR m * PI / INR N + 2 * INR m * PI) in E by (unfold t; field; auto). rewrite cos_plus_2nPI in E.
  apply (Rmult_eq_reg_l (2 * sin (INR m * PI / INR N))); lra.
Qed.

(** *** Chebyshev grids *)
(** sum over the zeros of T_N *)
Lemma zeros_sum N m : (0 < m < 2 * N)%nat -> Sig N (fun k => cos (INR m * PI / INR N * (INR k + / 2))) = 0.
Proof.
  intros H. assert (N0 : INR N <> 0) by (apply not_0_INR; lia). set (t := INR m * PI / INR N).
  assert (S0 : 0 < sin (t / 2)). { unfold t. replace (INR m * PI / INR N / 2) with (INR m * PI / INR (2 * N)); [now apply sin_frac_pos|]. rewrite mult_INR. simpl. field. auto. }
  pose proof (sum_cos_prog N (t / 2) t) as E.
  rewrite (Sig_ext N _ (fun k => cos (t / 2 + INR k * t))) by (intros; f_equal; field).
  replace (t / 2 + (INR N - / 2) * t) with (INR m * PI) in E by (unfold t; field; auto). replace (t / 2 - t / 2) with 0 in E by ring.
  rewrite sin_nPI, sin_0 in E. apply (Rmult_eq_reg_l (2 * sin (t / 2))); lra.
Qed.
(** 1/2 + cos t + ... + cos (N-1)t for t = m pi/N *)
Lemma dirichlet_frac N m : (1 <= N)%nat -> (0 < m < 2 * N)%nat ->
  / 2 + Sig (N - 1) (fun k => cos (INR (k + 1) * (INR m * PI / INR N))) = - (-1) ^ m / 2.
Proof.
  intros HN H. assert (N0 : INR N <> 0) by (apply not_0_INR; lia). set (t := INR m * PI / INR N).
  assert (S0 : 0 < sin (t / 2)). { unfold t. replace (INR m * PI / INR N / 2) with (INR m * PI / INR (2 * N)); [now apply sin_frac_pos|]. rewrite mult_INR. simpl. field. auto. }
  pose proof (dirichlet N t HN) as E. replace ((INR N - / 2) * t) with (- (t / 2) + INR m * PI) in E by (unfold t; field; auto).
  rewrite sin_plus_nPI, sin_neg in E. apply (Rmult_eq_reg_l (2 * sin (t / 2))); [|lra]. rewrite E. field.
Qed.

(** weights 1/2 at the two ends of 0..N *)
Definition wend (N k : nat) : R := if ((k =? 0) || (k =? N))%nat then / 2 else 1.
Lemma ends_split N f : (1 <= N)%nat -> Sig (N + 1) (fun k => wend N k * f k) = / 2 * f 0%nat + Sig (N - 1) (fun k => f (k + 1)%nat) + / 2 * f N.
Proof.
  intros H. replace (N + 1)%nat with (S (S (N - 1))) by lia. rewrite Sig_S, Sig_S_l. replace (S (N - 1)) with N by lia. f_equal; [f_equal|].
  - apply Sig_ext. intros k Hk. unfold wend. replace (k + 1)%nat with (S k) by lia.
    destruct (Nat.eqb_spec (S k) 0), (Nat.eqb_spec (S k) N); cbn [orb]; try lia. ring.
  - unfold wend. rewrite Nat.eqb_refl, orb_true_r. ring.
Qed.
Lemma extrema_sum N m : (0 < m < 2 * N)%nat -> Sig (N + 1) (fun k => wend N k * cos (INR k * (INR m * PI / INR N))) = 0.
Proof.
  intros H. assert (N0 : INR N <> 0) by (apply not_0_INR; lia).
  rewrite (ends_split N (fun k => cos (INR k * (INR m * PI / INR N)))) by lia. pose proof (dirichlet_frac N m ltac:(lia) H) as E.
  simpl (INR 0). rewrite Rmult_0_l, cos_0. replace (INR N * (INR m * PI / INR N)) with (INR m * PI) by (field; auto). rewrite cos_nPI. lra.
Qed.
Lemma extrema_sum0 N f : (1 <= N)%nat -> (forall k, f k = 1) -> Sig (N + 1) (fun k => wend N k * f k) = INR N.
Proof.
  intros H F. rewrite ends_split by auto. rewrite !F. rewrite (Sig_ext _ _ (fun _ => 1)) by auto. rewrite Sig_const, minus_INR by auto. simpl. lra.
Qed.
Definition delta (i j : nat) : R := if (i =? j)%nat then 1 else 0.
Lemma delta_eq i : delta i i = 1. Proof. unfold delta. now rewrite Nat.eqb_refl. Qed.
Lemma delta_ne i j : i <> j -> delta i j = 0. Proof. intros. unfold delta. destruct (Nat.eqb_spec i j); tauto. Qed.
Lemma Sig_delta_l n j f : (j < n)%nat -> Sig n (fun i => delta j i * f i) = f j.
Proof. intros. rewrite (Sig_single n j); auto. - rewrite delta_eq. ring. - intros. rewrite delta_ne by auto. ring. Qed.

(** cos (m x) for a difference of natural numbers *)
Lemma cos_absdiff j l x : cos (INR j * x - INR l * x) = cos (INR (if (j <=? l)%nat then l - j else j - l) * x).
Proof.
  destruct (Nat.leb_spec j l).
  - rewrite minus_INR by auto. rewrite <- cos_neg. f_equal. ring.
  - rewrite minus_INR by lia. f_equal. ring.
Qed.

(** discrete orthogonality at the extrema *)
Lemma extrema_orth N j l : (1 <= N)%nat -> (j <= N)%nat -> (l <= N)%nat ->
  wend N l * (2 / INR N * Sig (N + 1) (fun k => wend N k * (cos (INR j * (PI / INR N) * INR k) * cos (INR l * (PI / INR N) * INR k)))) = delta j l.
Proof.
  intros HN Hj Hl. assert (N0 : INR N <> 0) by (apply not_0_INR; lia).
  set (d := if (j <=? l)%nat then (l - j)%nat else (j - l)%nat).
  rewrite (Sig_ext _ _ (fun k => / 2 * (wend N k * cos (INR k * (INR d * PI / INR N))) + / 2 * (wend N k * cos (INR k * (INR (j + l) * PI / INR N))))).
  2:{ intros k _. rewrite cos_cos_prod. replace (INR j * (PI / INR N) * INR k - INR l * (PI / INR N) * INR k) with (INR j * (PI / INR N * INR k) - INR l * (PI / INR N * INR k)) by ring.
      rewrite cos_absdiff. fold d. replace (INR d * (PI / INR N * INR k)) with (INR k * (INR d * PI / INR N)) by (field; auto).
      replace (INR j * (PI / INR N) * INR k + INR l * (PI / INR N) * INR k) with (INR k * (INR (j + l) * PI / INR N)) by (rewrite plus_INR; field; auto). field. }
  rewrite Sig_plus, !Sig_scal. destruct (Nat.eq_dec j l) as [->|NE].
  - rewrite delta_eq. rewrite (extrema_sum0 N (fun k => cos (INR k * (INR d * PI / INR N)))) by (auto; intros; unfold d; rewrite Nat.leb_refl, Nat.sub_diag; simpl; replace (INR k * (0 * PI / INR N)) with 0 by (field; auto); apply cos_0).
    unfold wend at 1. destruct (Nat.eqb_spec l 0) as [->|L0]; [|destruct (Nat.eqb_spec l N) as [->|LN]]; cbn [orb].
    + rewrite extrema_sum0; auto. { field. auto. } intros. simpl. replace (INR k * (0 * PI / INR N)) with 0 by (field; auto). apply cos_0.
    + rewrite extrema_sum0; auto. { field. auto. } intros. replace (INR k * (INR (N + N) * PI / INR N)) with (0 + 2 * INR k * PI) by (rewrite plus_INR; field; auto). rewrite cos_plus_2nPI. apply cos_0.
    + rewrite extrema_sum by lia. field. auto.
  - rewrite delta_ne by auto. rewrite (extrema_sum N d) by (unfold d; destruct (Nat.leb_spec j l); lia). rewrite (extrema_sum N (j + l)) by lia. ring.
Qed.
(** discrete orthogonality at the zeros, weights 1/2 for the constant *)
Definition whalf (l : nat) : R := if (l =? 0)%nat then / 2 else 1.
Lemma half_split n f : Sig (n + 1) (fun k => whalf k * f k) = / 2 * f 0%nat + Sig n (fun k => f (k + 1)%nat).
Proof.
  rewrite Nat.add_1_r, Sig_S_l. f_equal. apply Sig_ext. intros k _. unfold whalf. simpl. rewrite Nat.add_1_r. ring.
Qed.
Lemma zeros_orth_k N j l : (j < N)%nat -> (l < N)%nat ->
  whalf l * (2 / INR N * Sig N (fun k => cos (INR j * (PI / INR N) * (INR k + / 2)) * cos (INR l * (PI / INR N) * (INR k + / 2)))) = delta j l.
Proof.
  intros Hj Hl. assert (N0 : INR N <> 0) by (apply not_0_INR; lia).
  set (d := if (j <=? l)%nat then (l - j)%nat else (j - l)%nat).
  rewrite (Sig_ext _ _ (fun k => / 2 * (cos (INR d * PI / INR N * (INR k + / 2))) + / 2 * (cos (INR (j + l) * PI / INR N * (INR k + / 2))))).
  2:{ intros k _. rewrite cos_cos_prod. replace (INR j * (PI / INR N) * (INR k + / 2) - INR l * (PI / INR N) * (INR k + / 2)) with (INR j * (PI / INR N * (INR k + / 2)) - INR l * (PI / INR N * (INR k + / 2))) by ring.
      rewrite cos_absdiff. fold d. replace (INR d * (PI / INR N * (INR k + / 2))) with (INR d * PI / INR N * (INR k + / 2)) by (field; auto).
      replace (INR j * (PI / INR N) * (INR k + / 2) + INR l * (PI / INR N) * (INR k + / 2)) with (INR (j + l) * PI / INR N * (INR k + / 2)) by (rewrite plus_INR; field; auto). field. }
  rewrite Sig_plus, !Sig_scal. destruct (Nat.eq_dec j l) as [->|NE].
  - rewrite delta_eq. rewrite (Sig_ext N (fun k => cos (INR d * PI / INR N * (INR k + / 2))) (fun _ => 1)).
    2:{ intros. unfold d. rewrite Nat.leb_refl, Nat.sub_diag. simpl. replace (0 * PI / INR N * (INR i + / 2)) with 0 by (field; auto). apply cos_0. }
    rewrite Sig_const. unfold whalf. destruct (Nat.eqb_spec l 0) as [->|L0].
    + rewrite (Sig_ext N _ (fun _ => 1)). 2:{ intros. simpl. replace (0 * PI / INR N * (INR i + / 2)) with 0 by (field; auto). apply cos_0. } rewrite Sig_const. field. auto.
    + rewrite zeros_sum by lia. field. auto.
  - rewrite delta_ne by auto. rewrite (zeros_sum N d) by (unfold d; destruct (Nat.leb_spec j l); lia). rewrite (zeros_sum N (j + l)) by lia. ring.
Qed.
Lemma pow_m1_abs j l : (-1) ^ (if (j <=? l)%nat then l - j else j - l) = (-1) ^ (j + l).
Proof.
  destruct (Nat.leb_spec j l).
  - replace (j + l)%nat with (l - j + 2 * j)%nat by lia. rewrite pow_add, pow_m1_double. ring.
  - replace (j + l)%nat with (j - l + 2 * l)%nat by lia. rewrite pow_add, pow_m1_double. ring.
Qed.
Lemma zeros_orth_l N k m : (k < N)%nat -> (m < N)%nat ->
  2 / INR N * Sig N (fun l => whalf l * (cos (INR l * (PI / INR N) * (INR k + / 2)) * cos (INR l * (PI / INR N) * (INR m + / 2)))) = delta k m.
Proof.
  intros Hk Hm. assert (N0 : INR N <> 0) by (apply not_0_INR; lia).
  replace N with (N - 1 + 1)%nat at 2 by lia. rewrite (half_split (N - 1) (fun l => cos (INR l * (PI / INR N) * (INR k + / 2)) * cos (INR l * (PI / INR N) * (INR m + / 2)))).
  set (d := if (k <=? m)%nat then (m - k)%nat else (k - m)%nat).
  rewrite (Sig_ext _ _ (fun l => / 2 * cos (INR (l + 1) * (INR d * PI / INR N)) + / 2 * cos (INR (l + 1) * (INR (k + m + 1) * PI / INR N)))).
  2:{ intros l _. rewrite cos_cos_prod. set (y := INR (l + 1)).
      replace (y * (PI / INR N) * (INR k + / 2) - y * (PI / INR N) * (INR m + / 2)) with (INR k * (y * (PI / INR N)) - INR m * (y * (PI / INR N))) by ring.
      rewrite cos_absdiff. fold d. replace (INR d * (y * (PI / INR N))) with (y * (INR d * PI / INR N)) by (field; auto).
      replace (y * (PI / INR N) * (INR k + / 2) + y * (PI / INR N) * (INR m + / 2)) with (y * (INR (k + m + 1) * PI / INR N)) by (rewrite !plus_INR; simpl; field; auto). field. }
  rewrite Sig_plus, !Sig_scal. simpl (INR 0). rewrite !Rmult_0_l, cos_0.
  pose proof (dirichlet_frac N (k + m + 1) ltac:(lia) ltac:(lia)) as E2.
  destruct (Nat.eq_dec k m) as [->|NE].
  - rewrite delta_eq. rewrite (Sig_ext (N - 1) (fun l => cos (INR (l + 1) * (INR d * PI / INR N))) (fun _ => 1)).
    2:{ intros. unfold d. rewrite Nat.leb_refl, Nat.sub_diag. simpl (INR 0). replace (INR (i + 1) * (0 * PI / INR N)) with 0 by (field; auto). apply cos_0. }
    rewrite Sig_const, minus_INR by lia. replace (m + m + 1)%nat with (1 + 2 * m)%nat in * by lia. rewrite pow_add, pow_m1_double in E2. simpl (INR 1).
    match goal with |- context [/ 2 * Sig ?a ?b] => replace (Sig a b) with (0) by lra end. field. auto.
  - rewrite delta_ne by auto. pose proof (dirichlet_frac N d ltac:(lia) ltac:(unfold d; destruct (Nat.leb_spec k m); lia)) as E1.
    unfold d in E1 at 2. rewrite pow_m1_abs in E1. rewrite pow_add in E2. simpl ((-1) ^ 1) in E2.
    assert (Z : / 2 * (1 * 1) + (/ 2 * Sig (N - 1) (fun i => cos (INR (i + 1) * (INR d * PI / INR N))) + / 2 * Sig (N - 1) (fun i => cos (INR (i + 1) * (INR (k + m + 1) * PI / INR N)))) = 0) by lra.
    rewrite Z. ring.
Qed.
