(** Trigonometric polynomials, and when the sum over a Fourier grid is the exact integral.  No code is modelled here. *)
From Verif Require Import Arrays Mat_model Mat_spec Mat_proofs Four_model Four_spec Four_proofs Four_props Dir_model Dir_spec Dir_props
  Lines_model Lines_spec Lines_proofs Lines_props Integ_spec Integ_proofs Integ_props.
Local Open Scope R_scope.

Inductive TP : nat -> (R -> R) -> Prop :=
| TPcos D n : (n <= D)%nat -> TP D (fun t => cos (INR n * t))
| TPsin D n : (n <= D)%nat -> TP D (fun t => sin (INR n * t))
| TPplus D f g : TP D f -> TP D g -> TP D (fun t => f t + g t)
| TPscal D f k : TP D f -> TP D (fun t => k * f t)
| TPext D f g : TP D f -> (forall t, g t = f t) -> TP D g.
Lemma TP_le D D' f : TP D f -> (D <= D')%nat -> TP D' f.
Proof.
  intros H. revert D'. induction H as [D n L|D n L|D f g _ A _ B|D f k _ A|D f g _ A E]; intros D' H'.
  - apply TPcos; lia. - apply TPsin; lia. - apply TPplus; auto. - apply TPscal; auto. - apply (TPext D' f); auto.
Qed.
Lemma TP_const D k : TP D (fun _ => k).
Proof. apply (TPext D (fun t => k * cos (INR 0 * t))). { apply TPscal, TPcos. lia. } intros t. simpl INR. rewrite Rmult_0_l, cos_0. ring. Qed.
Lemma TP_Sig D n (f : nat -> R -> R) : (forall i, (i < n)%nat -> TP D (f i)) -> TP D (fun t => Sig n (fun i => f i t)).
Proof. intros H. induction n as [|n IH]; cbn [Sig]. { apply TP_const. } apply (TPplus D (fun t => Sig n (fun i => f i t)) (f n)); auto. Qed.
Lemma TP_shift D f a : TP D f -> TP D (fun t => f (t + a)).
Proof.
  intros H. induction H as [D n L|D n L|D f g _ A _ B|D f k _ A|D f g _ A E].
  - apply (TPext D (fun t => cos (INR n * a) * cos (INR n * t) + - sin (INR n * a) * sin (INR n * t))). { apply (TPplus D (fun t => cos (INR n * a) * cos (INR n * t)) (fun t => - sin (INR n * a) * sin (INR n * t))); apply TPscal; [now apply TPcos|now apply TPsin]. }
    intros t. rewrite Rmult_plus_distr_l, cos_plus. ring.
  - apply (TPext D (fun t => sin (INR n * a) * cos (INR n * t) + cos (INR n * a) * sin (INR n * t))). { apply (TPplus D (fun t => sin (INR n * a) * cos (INR n * t)) (fun t => cos (INR n * a) * sin (INR n * t))); apply TPscal; [now apply TPcos|now apply TPsin]. }
    intros t. rewrite Rmult_plus_distr_l, sin_plus. ring.
  - now apply (TPplus D (fun t => f (t + a)) (fun t => g (t + a))).
  - now apply (TPscal D (fun t => f (t + a))).
  - apply (TPext D (fun t => f (t + a))); auto.
Qed.
Lemma TP_mulcos D f : TP D f -> TP (S D) (fun t => cos t * f t).
Proof.
  intros H. induction H as [D n L|D n L|D f g _ A _ B|D f k _ A|D f g _ A E].
  - destruct n as [|n].
    + apply (TPext (S D) (fun t => cos (INR 1 * t))). { apply TPcos. lia. } intros t. simpl INR. rewrite Rmult_0_l, cos_0, Rmult_1_l. ring.
    + apply (TPext (S D) (fun t => / 2 * (cos (INR (S (S n)) * t) + cos (INR n * t)))). { apply TPscal. apply (TPplus _ (fun t => cos (INR (S (S n)) * t)) (fun t => cos (INR n * t))); apply TPcos; lia. }
      intros t. rewrite !S_INR. replace ((INR n + 1 + 1) * t) with ((INR n + 1) * t + t) by ring. replace (INR n * t) with ((INR n + 1) * t - t) by ring. rewrite cos_plus, cos_minus. field.
  - destruct n as [|n].
    + apply (TPext (S D) (fun _ => 0)). { apply TP_const. } intros t. simpl INR. rewrite Rmult_0_l, sin_0. ring.
    + apply (TPext (S D) (fun t => / 2 * (sin (INR (S (S n)) * t) + sin (INR n * t)))). { apply TPscal. apply (TPplus _ (fun t => sin (INR (S (S n)) * t)) (fun t => sin (INR n * t))); apply TPsin; lia. }
      intros t. rewrite !S_INR. replace ((INR n + 1 + 1) * t) with ((INR n + 1) * t + t) by ring. replace (INR n * t) with ((INR n + 1) * t - t) by ring. rewrite sin_plus, sin_minus. field.
  - apply (TPext (S D) (fun t => cos t * f t + cos t * g t)). { now apply (TPplus (S D) (fun t => cos t * f t) (fun t => cos t * g t)). } intros. ring.
  - apply (TPext (S D) (fun t => k * (cos t * f t))). { now apply TPscal. } intros. ring.
  - apply (TPext (S D) (fun t => cos t * f t)); auto. intros. now rewrite E.
Qed.
(** even powers of the cosine and sine of the half angle *)
Lemma TP_half p q : TP (p + q) (fun t => cos (t / 2) ^ (2 * p) * sin (t / 2) ^ (2 * q)).
Proof.
  assert (Cc : forall t, cos (t / 2) * cos (t / 2) = / 2 * (1 + cos t)). { intros t. replace (cos t) with (cos (2 * (t / 2))) by (f_equal; field). rewrite cos_2a_cos. field. }
  assert (Ss : forall t, sin (t / 2) * sin (t / 2) = / 2 * (1 - cos t)). { intros t. replace (cos t) with (cos (2 * (t / 2))) by (f_equal; field). rewrite cos_2a_sin. field. }
  induction p as [|p IH].
  - induction q as [|q IH]. { apply (TPext 0 (fun _ => 1)). { apply TP_const. } intros. simpl. ring. }
    apply (TPext _ (fun t => / 2 * (cos (t / 2) ^ (2 * 0) * sin (t / 2) ^ (2 * q)) + (- / 2) * (cos t * (cos (t / 2) ^ (2 * 0) * sin (t / 2) ^ (2 * q))))).
    { apply (TPplus (0 + S q) (fun t => / 2 * (cos (t / 2) ^ (2 * 0) * sin (t / 2) ^ (2 * q))) (fun t => - / 2 * (cos t * (cos (t / 2) ^ (2 * 0) * sin (t / 2) ^ (2 * q))))); apply TPscal. { apply (TP_le (0 + q)); [auto|lia]. } apply (TP_mulcos (0 + q)). auto. }
    intros t. replace (2 * S q)%nat with (2 + 2 * q)%nat by lia. rewrite (pow_add _ 2). replace (sin (t / 2) ^ 2) with (/ 2 * (1 - cos t)) by (rewrite <- Ss; simpl; ring). field.
  - apply (TPext _ (fun t => / 2 * (cos (t / 2) ^ (2 * p) * sin (t / 2) ^ (2 * q)) + / 2 * (cos t * (cos (t / 2) ^ (2 * p) * sin (t / 2) ^ (2 * q))))).
    { apply (TPplus (S p + q) (fun t => / 2 * (cos (t / 2) ^ (2 * p) * sin (t / 2) ^ (2 * q))) (fun t => / 2 * (cos t * (cos (t / 2) ^ (2 * p) * sin (t / 2) ^ (2 * q))))); apply TPscal. { apply (TP_le (p + q)); [auto|lia]. } apply (TP_mulcos (p + q)). auto. }
    intros t. replace (2 * S p)%nat with (2 + 2 * p)%nat by lia. rewrite (pow_add _ 2). replace (cos (t / 2) ^ 2) with (/ 2 * (1 + cos t)) by (rewrite <- Cc; simpl; ring). field.
Qed.
(** a trigonometric polynomial of degree below half the number of points is one of the represented functions *)
Definition inband (N : nat) (f : R -> R) : Prop := exists c, List.length c = N /\ forall t, tpoly c N t = f t.
Lemma weight_nz N i : (i < N)%nat -> weight N i <> 0.
Proof. intros H. assert (0 < INR N) by (apply lt_0_INR; lia). unfold weight. destruct (_ || _)%bool; apply Rgt_not_eq; apply Rmult_lt_0_compat; try lra; now apply Rinv_0_lt_compat. Qed.
Lemma inband_mode N i : (i < N)%nat -> inband N (mode i).
Proof.
  intros H. exists (map (fun j => if Nat.eqb j i then / weight N i else 0) (seq 0 N)). split. { now rewrite map_length, seq_length. } intros t. unfold tpoly.
  rewrite (Sig_single N i); auto.
  - rewrite (map_seq_nth _ N i 0) by auto. rewrite Nat.eqb_refl. field. now apply weight_nz.
  - intros j Hj Nj. rewrite (map_seq_nth _ N j 0) by auto. destruct (Nat.eqb_spec j i); [congruence|]. ring.
Qed.
Lemma inband_TP N D f : (2 * D < N)%nat -> TP D f -> inband N f.
Proof.
  intros HD H. induction H as [D n L|D n L|D f g _ A _ B|D f k _ A|D f g _ A E].
  - destruct (Nat.eq_dec n 0) as [->|Nn]. { destruct (inband_mode N 0 ltac:(lia)) as (c & Lc & Hc). exists c. split; auto. intros t. rewrite Hc. simpl INR. rewrite Rmult_0_l, cos_0. reflexivity. }
    destruct (inband_mode N (2 * n - 1) ltac:(lia)) as (c & Lc & Hc). exists c. split; auto. intros t. rewrite Hc. apply mode_odd. lia.
  - destruct (Nat.eq_dec n 0) as [->|Nn]. { exists (repeat 0 N). split; [apply repeat_length|]. intros t. simpl INR. rewrite Rmult_0_l, sin_0. unfold tpoly. apply Sig_zero. intros i _. rewrite nth_repeat. ring. }
    destruct (inband_mode N (2 * n) ltac:(lia)) as (c & Lc & Hc). exists c. split; auto. intros t. rewrite Hc. apply mode_even. lia.
  - destruct (A HD) as (c & Lc & Hc), (B HD) as (c' & Lc' & Hc'). exists (map (fun i => c.[i] + c'.[i]) (seq 0 N)). split. { now rewrite map_length, seq_length. } intros t. rewrite <- Hc, <- Hc'. unfold tpoly. rewrite <- Sig_plus. apply Sig_ext. intros i Hi. rewrite (map_seq_nth _ N i 0) by auto. ring.
  - destruct (A HD) as (c & Lc & Hc). exists (map (fun i => k * c.[i]) (seq 0 N)). split. { now rewrite map_length, seq_length. } intros t. rewrite <- Hc. unfold tpoly. rewrite <- Sig_scal. apply Sig_ext. intros i Hi. rewrite (map_seq_nth _ N i 0) by auto. ring.
  - destruct (A HD) as (c & Lc & Hc). exists c. split; auto. intros t. now rewrite Hc, E.
Qed.
(** the integral over a Fourier line is the sum of the values times the distance of the points *)
Lemma fourier_sum (D : bdir) l x : b_lo D <> b_hi D -> (2 <= b_n D)%nat -> List.length l = b_n D -> line_integral Fourier D l x -> x = (b_hi D - b_lo D) / INR (b_n D) * Sig (b_n D) (fun k => l.[k]).
Proof.
  intros Hab Hn Ll H. apply (C43_spec_unique Fourier D l x _ eq_refl Hab Hn H). set (N := b_n D) in *.
  exists (map (fun i => Sig N (fun m => mode i (phase N m) * l.[m])) (seq 0 N)). split. { now rewrite map_length, seq_length. } assert (PN : 0 < INR N) by (apply lt_0_INR; lia). split.
  - intros k Hk. fold N in Hk |- *. cbn [expansion]. rewrite coord_fourier. replace (phase_at (b_lo D) (b_hi D) (b_lo D + INR k * (b_hi D - b_lo D) / INR N)) with (phase N k) by (unfold phase_at, phase; field; lra).
    unfold tpoly. rewrite <- (recon N (fun m => l.[m]) k Hk). apply Sig_ext. intros i Hi. rewrite (map_seq_nth _ N i 0) by auto. reflexivity.
  - set (c := map _ _). assert (I := four_integral (b_lo D) (b_hi D) N c Hab ltac:(lia)). cbn [expansion]. replace ((b_hi D - b_lo D) / INR N * Sig N (fun k => l.[k])) with (int1d fourmeth (b_hi D - b_lo D) N c); auto.
    cbn [int1d]. unfold c. rewrite (map_seq_nth _ N 0 0) by lia. rewrite (Sig_ext N _ (fun m => l.[m])). { field. lra. } intros k _. rewrite mode_0. ring.
Qed.
(** the integral over theta of the interpolant of a trigonometric polynomial *)
Lemma theta_exact N D c f sh x y : (2 <= N)%nat -> (2 * D < N)%nat -> TP D f -> List.length c = N ->
  (forall m, (m < N)%nat -> expansion Fourier 0 (2 * PI) N c (coord Fourier 0 (2 * PI) N m) = f (coord Fourier 0 (2 * PI) N m + sh)) ->
  integral (fun th => expansion Fourier 0 (2 * PI) N c (th - sh) * sin th) 0 PI x -> integral (fun th => f th * sin th) 0 PI y -> x = y.
Proof.
  intros HN HD Hf Lc Hc Hx Hy. assert (PP := PI_RGT_0). destruct (inband_TP N D (fun t => f (t + sh)) HD (TP_shift D f sh Hf)) as (c' & Lc' & Hc').
  assert (Ex : forall X, expansion Fourier 0 (2 * PI) N c' X = f (X + sh)). { intros X. cbn [expansion]. rewrite Hc'. do 2 f_equal. unfold phase_at. field. lra. }
  assert (c = c'). { apply (expansion_unique Fourier 0 (2 * PI) N); auto; [lra|]. intros m Hm. now rewrite Hc, Ex. } subst c'.
  apply (integral_unique (fun th => f th * sin th) 0 PI); [lra| |auto]. destruct Hx as (G & HG & Vx). exists G. split; auto. intros X. assert (A := HG X). cbv beta in A. rewrite Ex in A. replace (X - sh + sh) with X in A by ring. exact A.
Qed.
