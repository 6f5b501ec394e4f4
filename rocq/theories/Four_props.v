From Verif Require Import Four_proofs.
Local Open Scope R_scope.

(** ** C37 *)
Theorem C37_values c u u0 n : (n < List.length c)%nat -> (n < List.length u)%nat -> (n < List.length u0)%nat ->
  exists c' u', four_coeffs c u n = Ok c' /\ four_eval c' u0 n = Ok u' /\ List.length u' = List.length u0 /\
    (forall k, (k <= n)%nat -> u'.[k] = u.[k]) /\ (forall k, (n < k)%nat -> u'.[k] = u0.[k]).
Proof.
  intros Lc Lu Lv. destruct (four_coeffs_ok c u n Lc Lu) as (c' & E1 & L1 & V1 & O1). destruct (four_eval_ok c' u0 n ltac:(lia) Lv) as (u' & E2 & L2 & V2 & O2).
  exists c', u'. repeat split; auto. intros k Hk. rewrite V2 by auto. unfold tpoly. set (N := (n + 1)%nat) in *.
  rewrite (Sig_ext N _ (fun i => Sig N (fun m => u.[m] * (weight N i * (mode i (phase N k) * mode i (phase N m)))))).
  - rewrite Sig_swap. rewrite (Sig_ext N _ (fun m => delta k m * u.[m])). { apply Sig_delta_l. lia. } intros m Hm. rewrite Sig_scal, orth_i by lia. ring.
  - intros i Hi. rewrite V1 by lia. rewrite <- Sig_scal, <- Sig_scal_r. apply Sig_ext. intros. ring.
Qed.
Theorem C37_coeffs c u c0 n : (n < List.length c)%nat -> (n < List.length u)%nat -> (n < List.length c0)%nat ->
  exists u' c', four_eval c u n = Ok u' /\ four_coeffs c0 u' n = Ok c' /\ List.length c' = List.length c0 /\
    (forall i, (i <= n)%nat -> c'.[i] = c.[i]) /\ (forall i, (n < i)%nat -> c'.[i] = c0.[i]).
Proof.
  intros Lc Lu Lv. destruct (four_eval_ok c u n Lc Lu) as (u' & E1 & L1 & V1 & O1). destruct (four_coeffs_ok c0 u' n Lv ltac:(lia)) as (c' & E2 & L2 & V2 & O2).
  exists u', c'. repeat split; auto. intros i Hi. rewrite V2 by auto. set (N := (n + 1)%nat) in *.
  rewrite (Sig_ext N _ (fun k => Sig N (fun l => (c.[l] * weight N l) * (mode i (phase N k) * mode l (phase N k))))).
  - rewrite Sig_swap. rewrite (Sig_ext N _ (fun l => delta i l * c.[l])). { apply Sig_delta_l. lia. } intros l Hl. rewrite Sig_scal. rewrite <- (orth_k N i l) by lia. ring.
  - intros k Hk. rewrite V1 by lia. unfold tpoly. rewrite <- Sig_scal. apply Sig_ext. intros. ring.
Qed.
(** four_eval samples the trigonometric polynomial with these coefficients at the equidistant phases *)
Theorem C37_eval_samples c u n : (n < List.length c)%nat -> (n < List.length u)%nat ->
  exists u', four_eval c u n = Ok u' /\ forall k, (k <= n)%nat -> u'.[k] = tpoly c (n + 1) (phase (n + 1) k).
Proof. intros. destruct (four_eval_ok c u n) as (u' & E & _ & V & _); auto. exists u'. auto. Qed.

(** The alternative pair (normalised coefficients): what the round trip returns, for every number of points *)
Lemma coeffs_alt_ok c u n : (n < List.length c)%nat -> (n < List.length u)%nat ->
  exists c', four_coeffs_alt c u n = Ok c' /\ List.length c' = List.length c /\
    (forall i, (i <= n)%nat -> c'.[i] = weight (n + 1) i * Sig (n + 1) (fun k => mode i (phase (n + 1) k) * u.[k])) /\ (forall i, (n < i)%nat -> c'.[i] = c.[i]).
Proof.
  intros Lc Lu. unfold four_coeffs_alt. set (N := (n + 1)%nat). assert (N0 : INR N <> 0) by (apply not_0_INR; lia). destruct (first_coeff c u N) as (c1 & E1 & L1 & Z1 & O1); try lia.
  rewrite wr_ok in E1 by lia. cbn [rbind] in E1. rewrite wr_ok by lia. cbn [rbind]. cbv zeta. rewrite E1. cbn [rbind].
  rewrite (rd_ok c1 0%nat 0) by lia. cbn [rbind]. rewrite wr_ok by lia. cbn [rbind]. set (c2 := upd c1 0 (c1.[0] / INR N)). assert (L2 : List.length c2 = List.length c) by (unfold c2; now rewrite upd_length).
  assert (Z2 : c2.[0] = c1.[0] / INR N) by (unfold c2; now rewrite nth_upd_eq by lia). assert (O2 : forall m, (1 <= m)%nat -> c2.[m] = c.[m]) by (intros; unfold c2; rewrite nth_upd_ne by lia; auto).
  match goal with |- context [for_nat 1 (N / 2 + 1) ?B c2] => destruct (pairs_fill N c2 B (fun i => Sig N (fun k => mode i (phase N k) * u.[k]) * (2.0 / INR N))) as (c3 & E3 & L3 & V3) end.
  - lia.
  - intros j s Hj Ls. rewrite (sum_loop2 N _ (fun k => mode (2 * j - 1) (phase N k) * u.[k]) (fun k => mode (2 * j) (phase N k) * u.[k])). { reflexivity. }
    intros k t Hk. rewrite (rd_ok u k 0) by lia. cbn [rbind]. rewrite arg_phase_alt by lia. rewrite mode_odd, mode_even by lia. reflexivity.
  - rewrite E3. cbn [rbind]. set (S := fun i => Sig N (fun k => mode i (phase N k) * u.[k])) in *.
    assert (S0 : c3.[0] = weight N 0 * S 0%nat). { rewrite V3. cbn [Nat.leb andb]. rewrite Z2, Z1, weight_0. unfold S. rewrite (Sig_ext N (fun k => mode 0 (phase N k) * u.[k]) (fun k => u.[k])) by (intros; rewrite mode_0; ring). field. auto. }
    destruct (parity N) as [[Ev EN]|[Ev EN]]; pose proof Ev as Ev'; rewrite even_S2 in Ev'; rewrite Ev'.
    + rewrite (rd_ok c3 (N - 1)%nat 0) by lia. cbn [rbind]. rewrite wr_ok by lia. eexists. split; [reflexivity|]. rewrite upd_length. split; [lia|]. split; intros i Hi.
      * destruct (Nat.eq_dec i (N - 1)) as [->|NE].
        -- rewrite nth_upd_eq by lia. rewrite V3. destruct (Nat.leb_spec 1 (N - 1)), (Nat.ltb_spec (N - 1) N); cbn [andb]; try lia. rewrite weight_ny by (auto; lia). fold (S (N - 1)%nat). lra.
        -- rewrite nth_upd_ne by auto. destruct (Nat.eq_dec i 0) as [->|I0]; [exact S0|]. rewrite V3. destruct (Nat.leb_spec 1 i), (Nat.ltb_spec i N); cbn [andb]; try lia. rewrite weight_in by lia. fold (S i). lra.
      * rewrite nth_upd_ne by lia. rewrite V3. destruct (Nat.leb_spec 1 i), (Nat.ltb_spec i N); cbn [andb]; try lia. apply O2. lia.
    + exists c3. split; auto. split; [lia|]. split; intros i Hi.
      * destruct (Nat.eq_dec i 0) as [->|I0]; [exact S0|]. rewrite V3. destruct (Nat.leb_spec 1 i), (Nat.ltb_spec i N); cbn [andb]; try lia. rewrite weight_in by (auto; lia). fold (S i). lra.
      * rewrite V3. destruct (Nat.leb_spec 1 i), (Nat.ltb_spec i N); cbn [andb]; try lia. apply O2. lia.
Qed.
Lemma eval_alt_ok c u n : (n < List.length c)%nat -> (n < List.length u)%nat ->
  exists u', four_eval_alt c u n = Ok u' /\ List.length u' = List.length u /\
    (forall k, (k <= n)%nat -> u'.[k] = Sig (n + 1) (fun i => c.[i] * mode i (phase (n + 1) k)) - (if Nat.even (n + 1) then c.[n] * (-1) ^ k else 0)) /\ (forall k, (n < k)%nat -> u'.[k] = u.[k]).
Proof.
  intros Lc Lu. unfold four_eval_alt. set (N := (n + 1)%nat). cbv zeta.
  match goal with |- context [for_nat 0 N ?B u] => destruct (fill_loop 0 N B (fun k => Sig N (fun i => c.[i] * mode i (phase N k)) - (if Nat.even N then c.[n] * (-1) ^ k else 0)) u 0) as (u1 & E & L & V) end.
  - lia.
  - intros j s Hj Ls. rewrite four_sum_ok by lia. cbn [rbind]. rewrite (rd_ok c 0%nat 0) by lia. cbn [rbind]. rewrite (pairs_split N (fun i => c.[i] * mode i (phase N j))) by lia. rewrite mode_0, Rmult_1_r. rewrite even_S2. destruct (Nat.eqb_spec (N mod 2) 0) as [M|M].
    + rewrite (rd_ok c (N - 1)%nat 0) by lia. cbn [rbind]. rewrite Rmult_comm with (r1 := PI). rewrite cos_nPI. replace (N - 1)%nat with n by (unfold N; lia). reflexivity.
    + rewrite Rminus_0_r. reflexivity.
  - exists u1. rewrite E. repeat split; auto; intros k Hk; rewrite V; destruct (Nat.leb_spec 0 k), (Nat.ltb_spec k N); cbn [andb]; auto; lia.
Qed.
(** full statement: the alternative pair also inverts.  It holds for odd numbers of points; for even numbers the
    highest cosine of the data is lost *)
Theorem C37_alt_partial c u u0 n : (n < List.length c)%nat -> (n < List.length u)%nat -> (n < List.length u0)%nat ->
  exists c' u', four_coeffs_alt c u n = Ok c' /\ four_eval_alt c' u0 n = Ok u' /\
    forall k, (k <= n)%nat -> u'.[k] = u.[k] - (if Nat.even (n + 1) then (-1) ^ k * (Sig (n + 1) (fun m => (-1) ^ m * u.[m]) / INR (n + 1)) else 0).
Proof.
  intros Lc Lu Lv. destruct (coeffs_alt_ok c u n Lc Lu) as (c' & E1 & L1 & V1 & O1). destruct (eval_alt_ok c' u0 n ltac:(lia) Lv) as (u' & E2 & L2 & V2 & O2).
  exists c', u'. split; auto. split; auto. intros k Hk. rewrite V2 by auto. set (N := (n + 1)%nat) in *. f_equal.
  - rewrite (Sig_ext N _ (fun i => Sig N (fun m => u.[m] * (weight N i * (mode i (phase N k) * mode i (phase N m)))))).
    + rewrite Sig_swap. rewrite (Sig_ext N _ (fun m => delta k m * u.[m])). { apply Sig_delta_l. lia. } intros m Hm. rewrite Sig_scal, orth_i by lia. ring.
    + intros i Hi. rewrite V1 by lia. rewrite <- Sig_scal, <- Sig_scal_r. apply Sig_ext. intros. ring.
  - destruct (Nat.even N) eqn:Ev; auto. rewrite V1 by auto. replace n with (N - 1)%nat by (unfold N; lia). rewrite weight_ny by (auto; lia).
    rewrite (Sig_ext N (fun k0 => mode (N - 1) (phase N k0) * u.[k0]) (fun m => (-1) ^ m * u.[m])) by (intros; rewrite mode_ny by (auto; lia); auto). unfold Rdiv. ring.
Qed.
Theorem C37_alt_refuted : exists c u u0 n c' u', four_coeffs_alt c u n = Ok c' /\ four_eval_alt c' u0 n = Ok u' /\ List.length u = (n + 1)%nat /\
  (forall k, (k <= n)%nat -> u'.[k] = 0) /\ u.[0] = 1 /\ u.[1] = -1.
Proof.
  destruct (C37_alt_partial [0; 0] [1; -1] [0; 0] 1) as (c' & u' & E1 & E2 & V); simpl; try lia.
  exists [0; 0], [1; -1], [0; 0], 1%nat, c', u'. split; auto. split; auto. split; auto. split; [|simpl; auto].
  intros k Hk. rewrite V by auto. cbn [Nat.even Nat.add Sig]. destruct k as [|[|k]]; [simpl; lra|simpl; lra|lia].
Qed.
Example C37_example : (3 < List.length [1; 2; 3; 4])%nat. Proof. simpl; lia. Qed.

(** ** C38: derivative *)
Definition mode' (i : nat) (t : R) : R := if Nat.even i then (if (i =? 0)%nat then 0 else INR (i / 2) * cos (INR (i / 2) * t)) else - (INR ((i + 1) / 2) * sin (INR ((i + 1) / 2) * t)).
Lemma lin_deriv k t : derivable_pt_lim (fun z => k * z) t k.
Proof.
  cut (derivable_pt_lim (mult_real_fct k id) t (k * 1)). { rewrite Rmult_1_r. intros H. apply (derivable_pt_lim_ext (mult_real_fct k id)); [reflexivity|auto]. } apply derivable_pt_lim_scal, derivable_pt_lim_id.
Qed.
Lemma mode_deriv i t : derivable_pt_lim (mode i) t (mode' i t).
Proof.
  unfold mode, mode'. destruct (Nat.even i).
  - destruct (i =? 0)%nat. { apply derivable_pt_lim_const. }
    rewrite Rmult_comm. apply (derivable_pt_lim_comp (fun z => INR (i / 2) * z) sin); [apply lin_deriv|apply derivable_pt_lim_sin].
  - replace (- (INR ((i + 1) / 2) * sin (INR ((i + 1) / 2) * t))) with (- sin (INR ((i + 1) / 2) * t) * INR ((i + 1) / 2)) by ring.
    apply (derivable_pt_lim_comp (fun z => INR ((i + 1) / 2) * z) cos); [apply lin_deriv|apply derivable_pt_lim_cos].
Qed.
Lemma mode'_odd j t : (1 <= j)%nat -> mode' (2 * j - 1) t = - (INR j * mode (2 * j) t).
Proof.
  intros H. rewrite mode_even by auto. unfold mode'. replace (Nat.even (2 * j - 1)) with false.
  - replace (2 * j - 1 + 1)%nat with (j * 2)%nat by lia. now rewrite Nat.div_mul by lia.
  - symmetry. replace (2 * j - 1)%nat with (2 * (j - 1) + 1)%nat by lia. now rewrite Nat.even_add, Nat.even_mul.
Qed.
Lemma mode'_even j t : (1 <= j)%nat -> mode' (2 * j) t = INR j * mode (2 * j - 1) t.
Proof.
  intros H. rewrite mode_odd by auto. unfold mode'. rewrite Nat.even_mul. cbn [Nat.even orb]. destruct (Nat.eqb_spec (2 * j) 0); [lia|]. replace (2 * j)%nat with (j * 2)%nat by lia. now rewrite Nat.div_mul by lia.
Qed.
Lemma derivable_pt_lim_Sig n (f : nat -> R -> R) (f' : nat -> R) y : (forall i, (i < n)%nat -> derivable_pt_lim (f i) y (f' i)) ->
  derivable_pt_lim (fun z => Sig n (fun i => f i z)) y (Sig n f').
Proof.
  induction n as [|n IH]; intros H.
  - simpl. apply derivable_pt_lim_const.
  - rewrite Sig_S. apply (derivable_pt_lim_ext (fun z => Sig n (fun i => f i z) + f n z)); [reflexivity|]. apply derivable_pt_lim_plus; auto.
Qed.
Lemma tpoly_deriv c N t : derivable_pt_lim (tpoly c N) t (Sig N (fun i => weight N i * c.[i] * mode' i t)).
Proof. unfold tpoly. apply derivable_pt_lim_Sig. intros i _. apply derivable_pt_lim_scal. apply mode_deriv. Qed.
Lemma phase_at_deriv a b X : derivable_pt_lim (phase_at a b) X (2 * PI / (b - a)).
Proof.
  apply (derivable_pt_lim_ext (fun z => 2 * PI / (b - a) * z + - (2 * PI / (b - a) * a))). { intros z. unfold phase_at, Rdiv. ring. }
  cut (derivable_pt_lim (fun z => 2 * PI / (b - a) * z + - (2 * PI / (b - a) * a)) X (2 * PI / (b - a) + 0)). { now rewrite Rplus_0_r. }
  apply derivable_pt_lim_plus; [apply lin_deriv|apply derivable_pt_lim_const].
Qed.

Lemma four_deriv_ok a b c cder n : (n < List.length c)%nat -> (n < List.length cder)%nat ->
  exists d, four_deriv a b c cder n = Ok d /\ List.length d = List.length cder /\ (forall i, (n < i)%nat -> d.[i] = cder.[i]) /\ d.[0] = 0 /\
    (Nat.even (n + 1) = true -> d.[n] = 0) /\
    (forall j, (1 <= j)%nat -> (2 * j <= n)%nat -> d.[2 * j - 1] = c.[2 * j] * (2 * PI / (b - a)) * INR j /\ d.[2 * j] = - c.[2 * j - 1] * (2 * PI / (b - a)) * INR j).
Proof.
  intros Lc Ld. unfold four_deriv. set (N := (n + 1)%nat). cbv zeta. set (J := ((N + 1) / 2)%nat).
  assert (HJ : (2 * J = N \/ 2 * J = N + 1)%nat) by (unfold J; destruct (parity (N + 1)) as [[_ E]|[_ E]]; lia).
  set (K := 2.0 * PI / (b - a)). assert (EK : K = 2 * PI / (b - a)) by (unfold K; f_equal; lra).
  match goal with |- context [for_nat 1 J ?B cder] => destruct (pairs_fill2 J cder B (fun _ i => if Nat.even i then - c.[i - 1] * K * INR (i / 2) else c.[i + 1] * K * INR ((i + 1) / 2))) as (d1 & E1 & L1 & V1) end.
  - lia.
  - lia.
  - intros j s Hj Ls _ _. rewrite (rd_ok c (2 * j)%nat 0) by lia. cbn [rbind]. rewrite wr_ok by lia. cbn [rbind]. rewrite (rd_ok c (2 * j - 1)%nat 0) by lia. cbn [rbind]. rewrite wr_ok by (rewrite upd_length; lia).
    replace (Nat.even (2 * j - 1)) with false. 2:{ symmetry. replace (2 * j - 1)%nat with (2 * (j - 1) + 1)%nat by lia. now rewrite Nat.even_add, Nat.even_mul. }
    rewrite Nat.even_mul. cbn [Nat.even orb]. replace (2 * j - 1 + 1)%nat with (2 * j)%nat by lia. replace ((2 * j) / 2)%nat with j by (rewrite Nat.mul_comm, Nat.div_mul; lia). reflexivity.
  - rewrite E1. cbn [rbind]. rewrite wr_ok by lia. cbn [rbind]. set (d2 := upd d1 0 0). assert (L2 : List.length d2 = List.length cder) by (unfold d2; now rewrite upd_length).
    assert (F : exists d, (if (N mod 2 =? 0)%nat then wr d2 (N - 1) 0 else Ok d2) = Ok d /\ List.length d = List.length cder /\ forall i, d.[i] = if ((i =? 0) || ((N mod 2 =? 0) && (i =? N - 1)))%nat then 0 else d1.[i]).
    { destruct (N mod 2 =? 0)%nat.
      - rewrite wr_ok by lia. eexists. split; [reflexivity|]. rewrite upd_length. split; auto. intros i. cbn [andb]. destruct (Nat.eqb_spec i (N - 1)) as [->|NE].
        + rewrite nth_upd_eq by lia. now rewrite orb_true_r.
        + rewrite nth_upd_ne by auto. rewrite orb_false_r. unfold d2. destruct (Nat.eqb_spec i 0) as [->|I0]; [now rewrite nth_upd_eq by lia|now rewrite nth_upd_ne by auto].
      - exists d2. repeat split; auto. intros i. cbn [andb]. rewrite orb_false_r. unfold d2. destruct (Nat.eqb_spec i 0) as [->|I0]; [now rewrite nth_upd_eq by lia|now rewrite nth_upd_ne by auto]. }
    destruct F as (d & EF & LF & VF). exists d. rewrite EF. split; auto. split; auto. split; [|split; [|split]].
    + intros i Hi. rewrite VF. destruct (Nat.eqb_spec i 0), (Nat.eqb_spec i (N - 1)); try lia. rewrite andb_false_r. cbn [orb]. rewrite V1. destruct (Nat.leb_spec 1 i), (Nat.ltb_spec i (2 * J - 1)); cbn [andb]; auto; lia.
    + rewrite VF. reflexivity.
    + intros Ev. rewrite VF. rewrite even_S2 in Ev. rewrite Ev. replace (N - 1)%nat with n by (unfold N; lia). rewrite Nat.eqb_refl. cbn [andb]. now rewrite orb_true_r.
    + intros j J1 J2. assert (NL : (N mod 2 =? 0)%nat = true -> (2 * j < N - 1)%nat). { intros M. destruct (parity N) as [[_ E]|[E _]]; [lia|]. rewrite even_S2 in E. congruence. }
      rewrite !VF. rewrite <- EK. split.
      * destruct (Nat.eqb_spec (2 * j - 1) 0); [lia|]. destruct ((N mod 2 =? 0)%nat) eqn:M; cbn [andb orb].
        -- destruct (Nat.eqb_spec (2 * j - 1) (N - 1)); [specialize (NL eq_refl); lia|]. rewrite V1. destruct (Nat.leb_spec 1 (2 * j - 1)), (Nat.ltb_spec (2 * j - 1) (2 * J - 1)); cbn [andb]; try (specialize (NL eq_refl); lia).
           replace (Nat.even (2 * j - 1)) with false. 2:{ symmetry. replace (2 * j - 1)%nat with (2 * (j - 1) + 1)%nat by lia. now rewrite Nat.even_add, Nat.even_mul. }
           replace (2 * j - 1 + 1)%nat with (2 * j)%nat by lia. replace ((2 * j) / 2)%nat with j by (rewrite Nat.mul_comm, Nat.div_mul; lia). reflexivity.
        -- rewrite V1. destruct (Nat.leb_spec 1 (2 * j - 1)), (Nat.ltb_spec (2 * j - 1) (2 * J - 1)); cbn [andb]; try lia.
           replace (Nat.even (2 * j - 1)) with false. 2:{ symmetry. replace (2 * j - 1)%nat with (2 * (j - 1) + 1)%nat by lia. now rewrite Nat.even_add, Nat.even_mul. }
           replace (2 * j - 1 + 1)%nat with (2 * j)%nat by lia. replace ((2 * j) / 2)%nat with j by (rewrite Nat.mul_comm, Nat.div_mul; lia). reflexivity.
      * destruct (Nat.eqb_spec (2 * j) 0); [lia|]. destruct ((N mod 2 =? 0)%nat) eqn:M; cbn [andb orb].
        -- destruct (Nat.eqb_spec (2 * j) (N - 1)); [specialize (NL eq_refl); lia|]. rewrite V1. destruct (Nat.leb_spec 1 (2 * j)), (Nat.ltb_spec (2 * j) (2 * J - 1)); cbn [andb]; try (specialize (NL eq_refl); lia).
           rewrite Nat.even_mul. cbn [Nat.even orb]. replace ((2 * j) / 2)%nat with j by (rewrite Nat.mul_comm, Nat.div_mul; lia). reflexivity.
        -- rewrite V1. destruct (Nat.leb_spec 1 (2 * j)), (Nat.ltb_spec (2 * j) (2 * J - 1)); cbn [andb]; try lia.
           rewrite Nat.even_mul. cbn [Nat.even orb]. replace ((2 * j) / 2)%nat with j by (rewrite Nat.mul_comm, Nat.div_mul; lia). reflexivity.
Qed.
(** the polynomial with the differentiated coefficients is the derivative of the polynomial, up to the derivative of the highest cosine of an even number of points *)
Lemma deriv_tpoly a b c cder n t : (n < List.length c)%nat -> (n < List.length cder)%nat ->
  exists d, four_deriv a b c cder n = Ok d /\
    tpoly d (n + 1) t = 2 * PI / (b - a) * (Sig (n + 1) (fun i => weight (n + 1) i * c.[i] * mode' i t) - (if Nat.even (n + 1) then weight (n + 1) n * c.[n] * mode' n t else 0)).
Proof.
  intros Lc Ld. destruct (four_deriv_ok a b c cder n Lc Ld) as (d & E & L & O & Z & ZN & V). exists d. split; auto. unfold tpoly. set (N := (n + 1)%nat) in *.
  rewrite (pairs_split N (fun i => weight N i * d.[i] * mode i t)) by lia. rewrite (pairs_split N (fun i => weight N i * c.[i] * mode' i t)) by lia. rewrite Z. change (mode' 0 t) with 0.
  destruct (parity N) as [[Ev EN]|[Ev EN]]; rewrite Ev.
  - destruct (N / 2)%nat as [|p] eqn:EM; [lia|]. rewrite !Sig_S. destruct (Nat.ltb_spec (2 * (p + 1)) N); [lia|]. replace (2 * (p + 1) - 1)%nat with n by lia. rewrite (ZN Ev).
    rewrite (Sig_ext p _ (fun i => 2 * PI / (b - a) * (weight N (2 * (i + 1) - 1) * c.[2 * (i + 1) - 1] * mode' (2 * (i + 1) - 1) t + (if (2 * (i + 1) <? N)%nat then weight N (2 * (i + 1)) * c.[2 * (i + 1)] * mode' (2 * (i + 1)) t else 0)))).
    + rewrite Sig_scal. ring.
    + intros i Hi. destruct (Nat.ltb_spec (2 * (i + 1)) N); [|lia]. destruct (V (i + 1)%nat ltac:(lia) ltac:(lia)) as [V1 V2]. rewrite V1, V2. rewrite mode'_odd, mode'_even by lia. rewrite !weight_in by (try left; lia). ring.
  - rewrite (Sig_ext (N / 2) (fun i => weight N (2 * (i + 1) - 1) * d.[2 * (i + 1) - 1] * mode (2 * (i + 1) - 1) t + (if (2 * (i + 1) <? N)%nat then weight N (2 * (i + 1)) * d.[2 * (i + 1)] * mode (2 * (i + 1)) t else 0))
       (fun i => 2 * PI / (b - a) * (weight N (2 * (i + 1) - 1) * c.[2 * (i + 1) - 1] * mode' (2 * (i + 1) - 1) t + (if (2 * (i + 1) <? N)%nat then weight N (2 * (i + 1)) * c.[2 * (i + 1)] * mode' (2 * (i + 1)) t else 0)))).
    + rewrite Sig_scal. ring.
    + intros i Hi. destruct (Nat.ltb_spec (2 * (i + 1)) N); [|lia]. destruct (V (i + 1)%nat ltac:(lia) ltac:(lia)) as [V1 V2]. rewrite V1, V2. rewrite mode'_odd, mode'_even by lia. rewrite !weight_in by (auto; lia). ring.
Qed.
Lemma deriv_fun a b c cder n X : (n < List.length c)%nat -> (n < List.length cder)%nat ->
  (Nat.even (n + 1) = true -> c.[n] * mode' n (phase_at a b X) = 0) ->
  exists d, four_deriv a b c cder n = Ok d /\ derivable_pt_lim (fun Z => tpoly c (n + 1) (phase_at a b Z)) X (tpoly d (n + 1) (phase_at a b X)).
Proof.
  intros Lc Ld H. destruct (deriv_tpoly a b c cder n (phase_at a b X) Lc Ld) as (d & E & V). exists d. split; auto. rewrite V. clear V.
  apply (derivable_pt_lim_ext (comp (tpoly c (n + 1)) (phase_at a b))); [reflexivity|].
  replace (2 * PI / (b - a) * _) with (Sig (n + 1) (fun i => weight (n + 1) i * c.[i] * mode' i (phase_at a b X)) * (2 * PI / (b - a))).
  - apply derivable_pt_lim_comp; [apply phase_at_deriv|apply tpoly_deriv].
  - destruct (Nat.even (n + 1)); [|ring]. rewrite Rmult_assoc, H by auto. ring.
Qed.
(** At the grid points X_k = a + k(b-a)/N the differentiated coefficients give the exact derivative of the interpolant, for all data. *)
Theorem C38_at_grid a b c cder u n : (n < List.length c)%nat -> (n < List.length cder)%nat -> (n < List.length u)%nat -> a <> b ->
  exists d u', four_deriv a b c cder n = Ok d /\ four_eval d u n = Ok u' /\
    forall k, (k <= n)%nat -> derivable_pt_lim (fun Z => tpoly c (n + 1) (phase_at a b Z)) (a + INR k * (b - a) / INR (n + 1)) u'.[k].
Proof.
  intros Lc Ld Lu Hab. assert (N0 : INR (n + 1) <> 0) by (apply not_0_INR; lia).
  destruct (four_deriv_ok a b c cder n Lc Ld) as (d & E & L & _). destruct (four_eval_ok d u n ltac:(lia) Lu) as (u' & E2 & _ & V & _).
  exists d, u'. split; auto. split; auto. intros k Hk. set (X := a + INR k * (b - a) / INR (n + 1)).
  assert (P : phase_at a b X = phase (n + 1) k) by (unfold phase_at, phase, X; field; split; [auto|lra]).
  destruct (deriv_fun a b c cder n X Lc Ld) as (d' & E' & D).
  - intros Ev. rewrite P. destruct (parity (n + 1)) as [[_ EN]|[Ev' _]]; [|congruence]. replace n with (2 * ((n + 1) / 2) - 1)%nat at 2 by lia. rewrite mode'_odd by lia. rewrite mode_even by lia. rewrite phase_half, sin_nPI by (auto; lia). ring.
  - assert (d' = d) by congruence. subst d'. rewrite P in D. rewrite V by auto. exact D.
Qed.
(** Everywhere, if the number of points is odd or the data contain no highest cosine (band limit below the Nyquist frequency). *)
Theorem C38_everywhere a b c cder n X : (n < List.length c)%nat -> (n < List.length cder)%nat -> (Nat.even (n + 1) = true -> c.[n] = 0) ->
  exists d, four_deriv a b c cder n = Ok d /\ derivable_pt_lim (fun Z => tpoly c (n + 1) (phase_at a b Z)) X (tpoly d (n + 1) (phase_at a b X)).
Proof. intros Lc Ld H. apply deriv_fun; auto. intros Ev. rewrite H by auto. ring. Qed.
(** data level: samples of any trigonometric polynomial are differentiated to the samples of its derivative *)
Theorem C38_samples a b p u c cder v n : (n < List.length u)%nat -> (n < List.length c)%nat -> (n < List.length cder)%nat -> (n < List.length v)%nat -> (n < List.length p)%nat -> a <> b ->
  let X k := a + INR k * (b - a) / INR (n + 1) in let f Z := tpoly p (n + 1) (phase_at a b Z) in
  (forall k, (k <= n)%nat -> u.[k] = f (X k)) ->
  exists c' d v', four_coeffs c u n = Ok c' /\ four_deriv a b c' cder n = Ok d /\ four_eval d v n = Ok v' /\
    forall k, (k <= n)%nat -> derivable_pt_lim f (X k) v'.[k].
Proof.
  intros Lu Lc Ld Lv Lp Hab X f Hu. assert (N0 : INR (n + 1) <> 0) by (apply not_0_INR; lia).
  destruct (four_coeffs_ok c u n Lc Lu) as (c' & E1 & L1 & V1 & _). destruct (C38_at_grid a b c' cder v n) as (d & v' & E2 & E3 & D); auto; [lia|].
  exists c', d, v'. repeat split; auto. intros k Hk. specialize (D k Hk).
  assert (C : forall i, (i <= n)%nat -> c'.[i] = p.[i]).
  { intros i Hi. destruct (C37_coeffs p u c n Lp Lu Lc) as (u1 & c1 & F1 & F2 & _ & W & _). destruct (four_eval_ok p u n Lp Lu) as (u2 & F3 & L3 & V3 & _). assert (u2 = u1) by congruence. subst u2.
    destruct (four_coeffs_ok c u1 n Lc ltac:(lia)) as (c2 & F4 & _ & V4 & _). assert (c2 = c1) by congruence. subst c2. rewrite <- W by auto. rewrite V4, V1 by auto.
    apply Sig_ext. intros k' Hk'. rewrite V3, Hu by lia. unfold f, X. do 3 f_equal. unfold phase_at, phase. field. split; [auto|lra]. }
  apply (derivable_pt_lim_ext (fun Z => tpoly c' (n + 1) (phase_at a b Z))); auto. intros Z. unfold f, tpoly. apply Sig_ext. intros i Hi. rewrite C by lia. auto.
Qed.
Example C38_example : (4 < List.length [1; 2; 3; 4; 5])%nat /\ Nat.even (4 + 1) = false. Proof. simpl; auto. Qed.

(** ** integral *)
Definition imode (i : nat) (t : R) : R := (* antiderivative of mode i, i >= 1 *)
  if Nat.even i then - cos (INR (i / 2) * t) / INR (i / 2) else sin (INR ((i + 1) / 2) * t) / INR ((i + 1) / 2).
Lemma imode_odd j t : (1 <= j)%nat -> imode (2 * j - 1) t = mode (2 * j) t / INR j.
Proof.
  intros H. rewrite mode_even by auto. unfold imode. replace (Nat.even (2 * j - 1)) with false.
  - replace (2 * j - 1 + 1)%nat with (j * 2)%nat by lia. now rewrite Nat.div_mul by lia.
  - symmetry. replace (2 * j - 1)%nat with (2 * (j - 1) + 1)%nat by lia. now rewrite Nat.even_add, Nat.even_mul.
Qed.
Lemma imode_even j t : (1 <= j)%nat -> imode (2 * j) t = - mode (2 * j - 1) t / INR j.
Proof.
  intros H. rewrite mode_odd by auto. unfold imode. rewrite Nat.even_mul. cbn [Nat.even orb]. replace (2 * j)%nat with (j * 2)%nat by lia. now rewrite Nat.div_mul by lia.
Qed.
Lemma imode_deriv i t : (1 <= i)%nat -> derivable_pt_lim (imode i) t (mode i t).
Proof.
  intros Hi. destruct (index_cases (i + 1) i ltac:(lia)) as [->|[(j & [J1 J2] & ->)|(j & [J1 J2] & ->)]]; [lia| |]; assert (N0 : INR j <> 0) by (apply not_0_INR; lia).
  - apply (derivable_pt_lim_ext (fun z => / INR j * mode (2 * j) z)). { intros. rewrite imode_odd by auto. unfold Rdiv. ring. }
    replace (mode (2 * j - 1) t) with (/ INR j * mode' (2 * j) t) by (rewrite mode'_even by auto; field; auto). apply derivable_pt_lim_scal, mode_deriv.
  - apply (derivable_pt_lim_ext (fun z => - / INR j * mode (2 * j - 1) z)). { intros. rewrite imode_even by auto. unfold Rdiv. ring. }
    replace (mode (2 * j) t) with (- / INR j * mode' (2 * j - 1) t) by (rewrite mode'_odd by auto; field; auto). apply derivable_pt_lim_scal, mode_deriv.
Qed.

Lemma recon N (u : nat -> R) k : (k < N)%nat -> Sig N (fun i => weight N i * Sig N (fun m => mode i (phase N m) * u m) * mode i (phase N k)) = u k.
Proof.
  intros Hk. rewrite (Sig_ext N _ (fun i => Sig N (fun m => u m * (weight N i * (mode i (phase N k) * mode i (phase N m)))))).
  - rewrite Sig_swap. rewrite (Sig_ext N _ (fun m => delta k m * u m)). { apply Sig_delta_l. lia. } intros m Hm. rewrite Sig_scal, orth_i by lia. ring.
  - intros i Hi. rewrite <- Sig_scal, <- Sig_scal_r. apply Sig_ext. intros. ring.
Qed.
Lemma even_pred2 j : (1 <= j)%nat -> Nat.even (2 * j - 1) = false.
Proof. intros. replace (2 * j - 1)%nat with (2 * (j - 1) + 1)%nat by lia. now rewrite Nat.even_add, Nat.even_mul. Qed.
Lemma even_2 j : Nat.even (2 * j) = true. Proof. now rewrite Nat.even_mul. Qed.
Lemma half2 j : ((2 * j) / 2)%nat = j. Proof. now rewrite Nat.mul_comm, Nat.div_mul. Qed.
(** contribution of all terms but the constant to integral coefficient i *)
Definition iterm (K : R) (c : list R) (N i : nat) : R :=
  if ((i =? 0) || (Nat.even N && (i + 1 =? N)))%nat then 0 else if Nat.even i then c.[i - 1] / (K * INR (i / 2)) else - c.[i + 1] / (K * INR ((i + 1) / 2)).
Lemma four_int_ok a b c cint n : (n < List.length c)%nat -> (n < List.length cint)%nat ->
  exists d, four_int a b c cint n = Ok d /\ List.length d = List.length cint /\ (forall i, (n < i)%nat -> d.[i] = cint.[i]) /\
    forall i, (i <= n)%nat -> d.[i] = Sig (n + 1) (fun k => mode i (phase (n + 1) k) * (INR k * (b - a) / INR (n + 1))) * (c.[0] / INR (n + 1)) + iterm (2 * PI / (b - a)) c (n + 1) i.
Proof.
  intros Lc Ld. unfold four_int. set (N := (n + 1)%nat). cbv zeta. set (J := ((N + 1) / 2)%nat).
  assert (HJ : (2 * J = N \/ 2 * J = N + 1)%nat) by (unfold J; destruct (parity (N + 1)) as [[_ E]|[_ E]]; lia).
  set (K := 2.0 * PI / (b - a)). assert (EK : K = 2 * PI / (b - a)) by (unfold K; f_equal; lra). rewrite <- EK.
  destruct (fill_loop 0 N (fun j u => wr u j (INR j * (b - a) / INR N)) (fun j => INR j * (b - a) / INR N) (repeat 0 (N + 1)) 0) as (u & E1 & L1 & V1); [rewrite repeat_length; lia|auto|]. rewrite repeat_length in L1.
  rewrite E1. cbn [rbind]. destruct (four_coeffs_ok cint u n Ld ltac:(lia)) as (c1 & E2 & L2 & V2 & O2). rewrite E2. cbn [rbind].
  destruct (for_nat_inv (fun i s => List.length s = List.length c1 /\ forall m, s.[m] = if (m <? i)%nat then c1.[m] * (c.[0] / INR N) else c1.[m]) (fun j ci => do x <- rd ci j; do c0 <- rd c 0; wr ci j (x * (c0 / INR N))) 0 N c1) as (c2 & E3 & L3 & V3).
  { lia. } { split; auto. }
  { intros i s Hi [P1 P2]. rewrite (rd_ok s i 0) by lia. cbn [rbind]. rewrite (rd_ok c 0%nat 0) by lia. cbn [rbind]. rewrite wr_ok by lia. eexists. split; [reflexivity|]. rewrite upd_length. split; auto. intros m.
    destruct (Nat.eq_dec m i) as [->|NE].
    - rewrite nth_upd_eq by lia. rewrite P2. destruct (Nat.ltb_spec i i), (Nat.ltb_spec i (i + 1)); try lia. auto.
    - rewrite nth_upd_ne by auto. rewrite P2. destruct (Nat.ltb_spec m i), (Nat.ltb_spec m (i + 1)); try lia; auto. }
  rewrite E3. cbn [rbind].
  match goal with |- context [for_nat 1 J ?B c2] => destruct (pairs_fill2 J c2 B (fun c2 i => c2.[i] + (if Nat.even i then c.[i - 1] / (K * INR (i / 2)) else - c.[i + 1] / (K * INR ((i + 1) / 2))))) as (c3 & E4 & L4 & V4) end.
  - lia.
  - lia.
  - intros j s Hj Ls S1 S2. rewrite (rd_ok s (2 * j - 1)%nat 0) by lia. cbn [rbind]. rewrite (rd_ok c (2 * j)%nat 0) by lia. cbn [rbind]. rewrite wr_ok by lia. cbn [rbind].
    rewrite (rd_ok (upd s _ _) (2 * j)%nat 0) by (rewrite upd_length; lia). cbn [rbind]. rewrite (rd_ok c (2 * j - 1)%nat 0) by lia. cbn [rbind]. rewrite wr_ok by (rewrite upd_length; lia).
    rewrite nth_upd_ne by lia. rewrite even_pred2, even_2 by lia. replace (2 * j - 1 + 1)%nat with (2 * j)%nat by lia. rewrite half2, S1, S2. reflexivity.
  - rewrite E4. cbn [rbind].
    assert (F : exists d, (if (N mod 2 =? 0)%nat then do x <- rd c3 (N - 1); wr c3 (N - 1) (x + 0) else Ok c3) = Ok d /\ List.length d = List.length c3 /\ forall i, d.[i] = c3.[i]).
    { destruct (N mod 2 =? 0)%nat.
      - rewrite (rd_ok c3 (N - 1)%nat 0) by lia. cbn [rbind]. rewrite wr_ok by lia. eexists. split; [reflexivity|]. rewrite upd_length. split; auto. intros i. destruct (Nat.eq_dec i (N - 1)) as [->|NE]; [rewrite nth_upd_eq by lia; ring|now rewrite nth_upd_ne by auto].
      - exists c3. auto. }
    destruct F as (d & EF & LF & VF). exists d. split; auto. split; [lia|].
    assert (A1 : forall i, (i <= n)%nat -> c2.[i] = Sig N (fun k => mode i (phase N k) * (INR k * (b - a) / INR N)) * (c.[0] / INR N)).
    { intros i Hi. rewrite V3. destruct (Nat.ltb_spec i N); [|lia]. rewrite V2 by auto. f_equal. apply Sig_ext. intros k Hk. rewrite V1. destruct (Nat.leb_spec 0 k), (Nat.ltb_spec k N); cbn [andb]; try lia. auto. }
    split; intros i Hi; rewrite VF, V4.
    + destruct (Nat.leb_spec 1 i), (Nat.ltb_spec i (2 * J - 1)); cbn [andb]; try lia. rewrite V3. destruct (Nat.ltb_spec i N); [lia|]. apply O2. lia.
    + unfold iterm. rewrite A1 by auto. destruct (Nat.leb_spec 1 i), (Nat.ltb_spec i (2 * J - 1)); cbn [andb].
      * destruct (Nat.eqb_spec i 0), (Nat.eqb_spec (i + 1) N) as [EN|EN]; try lia; cbn [orb]; rewrite ?andb_false_r; auto. rewrite andb_true_r.
        destruct (parity N) as [[Ev EN']|[Ev EN']]; rewrite Ev; auto. lia.
      * destruct (Nat.eqb_spec i 0); [lia|]. destruct (Nat.eqb_spec (i + 1) N); [|lia]. destruct (parity N) as [[Ev EN']|[Ev EN']]; [|lia]. rewrite Ev. cbn [andb orb]. ring.
      * replace i with 0%nat by lia. cbn [Nat.eqb orb]. ring.
      * replace i with 0%nat by lia. cbn [Nat.eqb orb]. ring.
Qed.
(** The function obtained from four_int, evaluated at the grid points, is an antiderivative (zero-mode part vanishing at a)
    of the interpolant without its highest cosine (even number of points). *)
Theorem C38_integral a b c cint u n : (n < List.length c)%nat -> (n < List.length cint)%nat -> (n < List.length u)%nat -> a <> b ->
  let N := (n + 1)%nat in let low := if Nat.even N then upd c n 0 else c in
  exists d u' F, four_int a b c cint n = Ok d /\ four_eval d u n = Ok u' /\
    (forall k, (k <= n)%nat -> u'.[k] = F (a + INR k * (b - a) / INR N)) /\
    (forall X, derivable_pt_lim F X (tpoly low N (phase_at a b X))).
Proof.
  intros Lc Ld Lu Hab N low. assert (N0 : INR N <> 0) by (apply not_0_INR; lia). assert (PI0 := PI_neq0).
  destruct (four_int_ok a b c cint n Lc Ld) as (d & E1 & L1 & _ & V1). destruct (four_eval_ok d u n ltac:(lia) Lu) as (u' & E2 & _ & V2 & _). fold N in V1, V2.
  set (K := 2 * PI / (b - a)) in *. assert (K0 : K <> 0). { unfold K. apply Rmult_integral_contrapositive. split; [lra|]. apply Rinv_neq_0_compat. lra. }
  exists d, u', (fun X => c.[0] / INR N * (X - a) + Sig n (fun i => / K * (weight N (i + 1) * low.[i + 1]) * imode (i + 1) (phase_at a b X))).
  split; auto. split; auto. split.
  - intros k Hk. rewrite V2 by auto. set (X := a + INR k * (b - a) / INR N). assert (P : phase_at a b X = phase N k) by (unfold phase_at, phase, X; field; split; [auto|lra]). rewrite P.
    unfold tpoly. rewrite (Sig_ext N _ (fun i => c.[0] / INR N * (weight N i * Sig N (fun m => mode i (phase N m) * (INR m * (b - a) / INR N)) * mode i (phase N k)) + weight N i * iterm K c N i * mode i (phase N k))) by (intros i Hi; rewrite V1 by lia; ring).
    rewrite Sig_plus, Sig_scal. rewrite (recon N (fun m => INR m * (b - a) / INR N)) by lia. f_equal. { unfold X. ring. }
    (* term by term *)
    assert (G : Sig n (fun i => / K * (weight N (i + 1) * low.[i + 1]) * imode (i + 1) (phase N k)) = Sig N (fun i => if (i =? 0)%nat then 0 else / K * (weight N i * low.[i]) * imode i (phase N k))).
    { match goal with |- _ = Sig N ?f => change (Sig N f) with (Sig (n + 1) f) end. rewrite (Nat.add_1_r n). rewrite Sig_S_l. cbn [Nat.eqb]. rewrite Rplus_0_l. apply Sig_ext. intros i Hi. replace (S i) with (i + 1)%nat by lia. destruct (Nat.eqb_spec (i + 1) 0); [lia|auto]. }
    rewrite G. rewrite (pairs_split N (fun i => weight N i * iterm K c N i * mode i (phase N k))) by lia. rewrite (pairs_split N (fun i => if (i =? 0)%nat then 0 else / K * (weight N i * low.[i]) * imode i (phase N k))) by lia.
    cbn [Nat.eqb]. f_equal. { unfold iterm. cbn [Nat.eqb orb]. ring. }
    apply Sig_ext. intros i Hi. set (j := (i + 1)%nat). assert (J1 : (1 <= j)%nat) by (unfold j; lia). assert (J0 : INR j <> 0) by (apply not_0_INR; lia).
    destruct (Nat.eqb_spec (2 * j - 1) 0); [lia|]. destruct (Nat.eqb_spec (2 * j) 0); [lia|]. destruct (Nat.ltb_spec (2 * j) N) as [G2|G2].
    + assert (W : weight N (2 * j - 1) = 2 / INR N /\ weight N (2 * j) = 2 / INR N).
      { split; [apply weight_in; [lia|left; lia]|apply weight_in; [lia|]]. destruct (parity N) as [[_ EN]|[EN _]]; [left; lia|auto]. } destruct W as [W1 W2]. rewrite W1, W2.
      assert (LW : forall m, (m < N)%nat -> (Nat.even N = true -> m <> n) -> low.[m] = c.[m]). { intros m Hm Hne. unfold low. destruct (Nat.even N); auto. rewrite nth_upd_ne; auto. intros Q. now apply Hne. }
      assert (NE : Nat.even N = true -> (2 * j < n)%nat). { intros Ev. destruct (parity N) as [[_ EN]|[EN _]]; [lia|congruence]. }
      rewrite !LW by (try lia; intros Ev; specialize (NE Ev); lia). rewrite imode_odd, imode_even by auto.
      assert (I1 : iterm K c N (2 * j - 1) = - c.[2 * j] / (K * INR j)).
      { unfold iterm. destruct (Nat.eqb_spec (2 * j - 1) 0); [lia|]. rewrite even_pred2 by auto. replace (2 * j - 1 + 1)%nat with (2 * j)%nat by lia. rewrite half2. destruct (Nat.eqb_spec (2 * j) N); [lia|]. rewrite andb_false_r. reflexivity. }
      assert (I2 : iterm K c N (2 * j) = c.[2 * j - 1] / (K * INR j)).
      { unfold iterm. destruct (Nat.eqb_spec (2 * j) 0); [lia|]. rewrite even_2. rewrite half2. destruct (Nat.eqb_spec (2 * j + 1) N) as [EN|EN].
        - replace (Nat.even N) with false by (rewrite <- EN; now rewrite Nat.even_add, Nat.even_mul). reflexivity.
        - rewrite andb_false_r. reflexivity. }
      rewrite I1, I2. field. repeat split; auto.
    + destruct (parity N) as [[Ev EN]|[_ EN]]; [|lia]. assert (EQ : (2 * j - 1 = n)%nat) by (unfold j in *; lia). rewrite EQ.
      replace (iterm K c N n) with 0. 2:{ unfold iterm. rewrite Ev. unfold N. rewrite Nat.eqb_refl. cbn [andb]. now rewrite orb_true_r. }
      unfold low. rewrite Ev. rewrite nth_upd_eq by lia. ring.
  - intros X. replace (tpoly low N (phase_at a b X)) with (c.[0] / INR N * 1 + Sig n (fun i => / K * (weight N (i + 1) * low.[i + 1]) * (mode (i + 1) (phase_at a b X) * K))).
    + apply (derivable_pt_lim_ext (fun Z => c.[0] / INR N * (Z - a) + Sig n (fun i => / K * (weight N (i + 1) * low.[i + 1]) * imode (i + 1) (phase_at a b Z)))); [reflexivity|].
      apply derivable_pt_lim_plus.
      * apply derivable_pt_lim_scal. replace 1 with (1 - 0) by ring. apply derivable_pt_lim_minus; [apply derivable_pt_lim_id|apply derivable_pt_lim_const].
      * apply derivable_pt_lim_Sig. intros i _. apply derivable_pt_lim_scal. apply (derivable_pt_lim_comp (phase_at a b) (imode (i + 1))); [apply phase_at_deriv|apply imode_deriv; lia].
    + unfold tpoly. match goal with |- _ = Sig N ?f => change (Sig N f) with (Sig (n + 1) f) end. rewrite (Nat.add_1_r n). rewrite Sig_S_l. f_equal.
      * rewrite weight_0, mode_0. destruct (Nat.eq_dec n 0) as [->|N1].
        -- unfold low, N. simpl. field. 
        -- replace low.[0] with c.[0]. { field. auto. } unfold low. destruct (Nat.even N); auto. rewrite nth_upd_ne; auto.
      * apply Sig_ext. intros i _. replace (S i) with (i + 1)%nat by lia. field. auto.
Qed.

(** ** C39: basis functions *)
(** four_basisfunc is the mode times the weight, with the phase counted from X = 0 instead of X = a *)
Theorem C39_four_basis a b k N X : (k < N)%nat -> four_basisfunc a b k N X = weight N k * mode k (2 * PI / (b - a) * X).
Proof.
  intros Hk. assert (N0 : INR N <> 0) by (apply not_0_INR; lia). unfold four_basisfunc, weight. cbv zeta. rewrite <- even_S2. rewrite <- even_S2. replace (2.0 * PI) with (2 * PI) by lra.
  destruct (Nat.eqb_spec k 0) as [->|K0]. { cbn [orb]. rewrite mode_0. lra. } cbn [orb]. rewrite (andb_comm (Nat.even N)).
  destruct (index_cases N k Hk) as [->|[(j & [J1 J2] & ->)|(j & [J1 J2] & ->)]]; [lia| |].
  - rewrite even_pred2 by auto. cbn [negb]. rewrite mode_odd by auto.
    replace ((2 * j - 1) / 2 + (2 * j - 1) mod 2)%nat with j. 2:{ replace (2 * j - 1)%nat with (1 + (j - 1) * 2)%nat by lia. rewrite Nat.div_add, Nat.mod_add by lia. simpl (1 / 2)%nat. simpl (1 mod 2)%nat. lia. }
    rewrite Rmult_assoc. destruct ((2 * j - 1 + 1 =? N)%nat && Nat.even N)%bool; unfold Rdiv; lra.
  - rewrite even_2. cbn [negb]. rewrite mode_even by auto.
    replace ((2 * j) / 2 + (2 * j) mod 2)%nat with j. 2:{ rewrite (Nat.mul_comm 2 j), Nat.div_mul, Nat.mod_mul by lia. lia. }
    replace ((2 * j + 1 =? N)%nat && Nat.even N)%bool with false. { rewrite Rmult_assoc. unfold Rdiv. lra. }
    symmetry. destruct (Nat.eqb_spec (2 * j + 1) N) as [<-|]; auto. now rewrite Nat.even_add, Nat.even_mul.
Qed.
(** On a box starting at X = 0 (or at a multiple of its length) interpolation reproduces the data *)
Lemma mode_period i t m : mode i (t + 2 * INR m * PI) = mode i t.
Proof.
  unfold mode. destruct (Nat.even i); [destruct (i =? 0)%nat; auto|]; rewrite Rmult_plus_distr_l.
  - replace (INR (i / 2) * (2 * INR m * PI)) with (2 * INR (i / 2 * m) * PI) by (rewrite mult_INR; ring). apply sin_period.
  - replace (INR ((i + 1) / 2) * (2 * INR m * PI)) with (2 * INR ((i + 1) / 2 * m) * PI) by (rewrite mult_INR; ring). apply cos_period.
Qed.
Theorem C39_four_partial a b c u n m : (n < List.length c)%nat -> (n < List.length u)%nat -> a <> b -> a = INR m * (b - a) ->
  exists c', four_coeffs c u n = Ok c' /\ forall k, (k <= n)%nat ->
    Sig (n + 1) (fun i => c'.[i] * four_basisfunc a b i (n + 1) (a + INR k * (b - a) / INR (n + 1))) = u.[k].
Proof.
  intros Lc Lu Hab Ha. destruct (C37_values c u u n Lc Lu Lu) as (c' & u' & E1 & E2 & _ & V & _). destruct (four_coeffs_ok c u n Lc Lu) as (c1 & F1 & F2 & _). assert (c1 = c') by congruence. subst c1.
  destruct (four_eval_ok c' u n ltac:(lia) Lu) as (u1 & G1 & _ & G2 & _). assert (u1 = u') by congruence. subst u1.
  exists c'. split; auto. intros k Hk. rewrite <- V, G2 by auto. unfold tpoly. apply Sig_ext. intros i Hi. rewrite C39_four_basis by lia.
  replace (2 * PI / (b - a) * (a + INR k * (b - a) / INR (n + 1))) with (phase (n + 1) k + 2 * INR m * PI).
  - rewrite mode_period. ring.
  - unfold phase. rewrite Ha at 2. field. split; [|lra]. apply not_0_INR. lia.
Qed.
(** On other boxes it does not: the box [1/2,7/2] with three points and data (0,1,-1) *)
Theorem C39_four_shifted_refuted : exists a b c u n c' k, a < b /\ (n < List.length u)%nat /\ (k <= n)%nat /\ four_coeffs c u n = Ok c' /\
  Sig (n + 1) (fun i => c'.[i] * four_basisfunc a b i (n + 1) (a + INR k * (b - a) / INR (n + 1))) <> u.[k].
Proof.
  destruct (four_coeffs_ok [0; 0; 0] [0; 1; -1] 2) as (c' & E & L & V & _); simpl; try lia.
  exists (1 / 2), (7 / 2), [0; 0; 0], [0; 1; -1], 2%nat, c', 0%nat. split; [lra|]. split; [simpl; lia|]. split; [lia|]. split; auto.
  assert (P1 : phase 3 1 = 2 * (PI / 3)) by (unfold phase; simpl; field).
  assert (P2 : phase 3 2 = - (2 * (PI / 3)) + 2 * INR 1 * PI) by (unfold phase; simpl; field).
  simpl (2 + 1)%nat in V. simpl (2 + 1)%nat.
  assert (M1 : forall i, mode i (phase 3 2) = mode i (- (2 * (PI / 3)))) by (intros; rewrite P2; apply mode_period).
  pose proof (V 0%nat ltac:(lia)) as V0. pose proof (V 1%nat ltac:(lia)) as V1. pose proof (V 2%nat ltac:(lia)) as V2. cbn [Sig nth] in V0, V1, V2. rewrite M1 in V0, V1, V2. rewrite P1 in V0, V1, V2.
  cbn [Sig]. rewrite !C39_four_basis by lia. set (t := 2 * PI / (7 / 2 - 1 / 2) * _). assert (T : t = PI / 3) by (unfold t; simpl; field). rewrite T. clear t T.
  change (mode 0 ?x) with 1 in *. replace 1%nat with (2 * 1 - 1)%nat in V1 |- * by lia. replace 2%nat with (2 * 1)%nat in V2 by lia.
  change (mode (2 * 1 - 1) (PI / 3)) with (cos (1 * (PI / 3))). change (mode 2 (PI / 3)) with (sin (1 * (PI / 3))). rewrite !mode_odd in V1 by lia. rewrite !mode_even in V2 by lia.
  simpl (INR 1) in V1, V2. rewrite ?Rmult_1_l in V1, V2. rewrite ?Rmult_1_l. rewrite cos_neg in V1. rewrite sin_neg in V2. change (2 * 1 - 1)%nat with 1%nat in *. change (2 * 1)%nat with 2%nat in V2. cbn [nth].
  replace (nth 1 c' 0) with 0 by lra. replace (nth 0 c' 0) with 0 by lra.
  rewrite (weight_in 3 2) by (try right; try reflexivity; lia). change (mode 2 (PI / 3)) with (mode (2 * 1) (PI / 3)). rewrite mode_even by lia. simpl (INR 1). rewrite Rmult_1_l. replace (nth 2 c' 0) with (2 * sin (2 * (PI / 3))) by lra. rewrite sin_2a, sin_PI3, cos_PI3. assert (0 < sqrt 3) by (apply sqrt_lt_R0; lra). pose proof (sqrt_sqrt 3 ltac:(lra)).
  replace (INR 3) with 3 by (simpl; ring). intros Q. nra.
Qed.

Print Assumptions C37_values.
Print Assumptions C37_coeffs.
Print Assumptions C37_alt_partial.
Print Assumptions C37_alt_refuted.
Print Assumptions C38_at_grid.
Print Assumptions C38_samples.
Print Assumptions C38_integral.
Print Assumptions C39_four_basis.
Print Assumptions C39_four_partial.
Print Assumptions C39_four_shifted_refuted.
