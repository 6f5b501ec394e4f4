(** The source of the scalar field on Kerr rotates rigidly. *)
From Verif Require Import Four_proofs Four_props Angle_model Angle_spec Angle_props Rho_model.
Local Open Scope R_scope.
Lemma rotate_ok c0 c n w : (n < List.length c0)%nat -> (n < List.length c)%nat ->
  exists c', rotate_modes c0 c (n + 1) w = Ok c' /\ List.length c' = List.length c /\
    (forall k, (k <= n)%nat -> c'.[k] = if (k =? 0)%nat then c0.[k] else if (k <=? 2 * ((n + 1 - 1) / 2))%nat then
      if (k mod 2 =? 1)%nat then c0.[k] * cos (INR ((k + 1) / 2) * w) - c0.[k + 1] * sin (INR ((k + 1) / 2) * w) else c0.[k - 1] * sin (INR ((k + 1) / 2) * w) + c0.[k] * cos (INR ((k + 1) / 2) * w)
      else c0.[k] * cos (INR ((k + 1) / 2) * w)).
Proof.
  intros L0 L. unfold rotate_modes. cbv zeta. set (V := fun k : nat => if (k =? 0)%nat then c0.[k] else if (k <=? 2 * ((n + 1 - 1) / 2))%nat then
      if (k mod 2 =? 1)%nat then c0.[k] * cos (INR ((k + 1) / 2) * w) - c0.[k + 1] * sin (INR ((k + 1) / 2) * w) else c0.[k - 1] * sin (INR ((k + 1) / 2) * w) + c0.[k] * cos (INR ((k + 1) / 2) * w)
      else c0.[k] * cos (INR ((k + 1) / 2) * w)).
  match goal with |- context [for_nat 0 (n + 1) ?B c] => destruct (fill_loop 0 (n + 1) B V c 0) as (c' & E & L' & V') end.
  - lia.
  - intros k s Hk Ls. unfold V. pose proof (Nat.div_mod (n + 1 - 1) 2 ltac:(lia)) as DM. pose proof (Nat.mod_upper_bound (n + 1 - 1) 2 ltac:(lia)). pose proof (Nat.div_mod k 2 ltac:(lia)) as DK.
    destruct (Nat.eqb_spec k 0). { now rewrite (rd_ok c0 k 0) by lia. } destruct (Nat.leb_spec k (2 * ((n + 1 - 1) / 2))) as [K|K].
    + destruct (Nat.eqb_spec (k mod 2) 1) as [O|O].
      * rewrite (rd_ok c0 k 0) by lia. cbn [rbind]. now rewrite (rd_ok c0 (k + 1)%nat 0) by lia.
      * rewrite (rd_ok c0 (k - 1)%nat 0) by lia. cbn [rbind]. now rewrite (rd_ok c0 k 0) by lia.
    + now rewrite (rd_ok c0 k 0) by lia.
  - exists c'. split; [exact E|]. split; [exact L'|]. intros k Hk. rewrite V'. destruct (Nat.leb_spec 0 k), (Nat.ltb_spec k (n + 1)); cbn [andb]; auto; lia.
Qed.
Lemma rotate_tpoly c0 c n w k : (n < List.length c0)%nat -> (n < List.length c)%nat -> (k <= n)%nat ->
  exists c', rotate_modes c0 c (n + 1) w = Ok c' /\ List.length c' = List.length c /\ tpoly c' (n + 1) (phase (n + 1) k) = tpoly c0 (n + 1) (phase (n + 1) k - w).
Proof.
  intros L0 L Hk. destruct (rotate_ok c0 c n w L0 L) as (c' & E & L' & V). exists c'. split; [exact E|]. split; [exact L'|].
  set (N := (n + 1)%nat) in *. set (ph := phase N k).
  assert (P1 : forall j, (1 <= j)%nat -> (2 * j < N)%nat -> c'.[2 * j - 1] = c0.[2 * j - 1] * cos (INR j * w) - c0.[2 * j] * sin (INR j * w) /\ c'.[2 * j] = c0.[2 * j - 1] * sin (INR j * w) + c0.[2 * j] * cos (INR j * w)).
  { intros j J1 J2. pose proof (Nat.div_mod (N - 1) 2 ltac:(lia)) as DM. pose proof (Nat.mod_upper_bound (N - 1) 2 ltac:(lia)).
    assert (O : ((2 * j - 1) mod 2 = 1)%nat) by (replace (2 * j - 1)%nat with (1 + (j - 1) * 2)%nat by lia; rewrite Nat.mod_add by lia; reflexivity).
    assert (O2 : ((2 * j) mod 2 = 0)%nat) by (rewrite Nat.mul_comm; apply Nat.mod_mul; lia).
    assert (Q : ((2 * j - 1 + 1) / 2 = j)%nat) by (replace (2 * j - 1 + 1)%nat with (j * 2)%nat by lia; apply Nat.div_mul; lia).
    assert (Q2 : ((2 * j + 1) / 2 = j)%nat) by (symmetry; apply (Nat.div_unique _ _ _ 1); lia).
    rewrite !V by lia. rewrite O, O2, Q, Q2. destruct (Nat.eqb_spec (2 * j - 1) 0); [lia|]. destruct (Nat.eqb_spec (2 * j) 0); [lia|].
    destruct (Nat.leb_spec (2 * j - 1) (2 * ((N - 1) / 2))); [|lia]. destruct (Nat.leb_spec (2 * j) (2 * ((N - 1) / 2))); [|lia]. cbn [Nat.eqb]. replace (2 * j - 1 + 1)%nat with (2 * j)%nat by lia. split; ring. }
  assert (P2 : forall j, (1 <= j)%nat -> (2 * j)%nat = N -> c'.[2 * j - 1] = c0.[2 * j - 1] * cos (INR j * w) /\ sin (INR j * ph) = 0).
  { intros j J1 J2. pose proof (Nat.div_mod (N - 1) 2 ltac:(lia)) as DM. pose proof (Nat.mod_upper_bound (N - 1) 2 ltac:(lia)).
    assert (Q : ((2 * j - 1 + 1) / 2 = j)%nat) by (replace (2 * j - 1 + 1)%nat with (j * 2)%nat by lia; apply Nat.div_mul; lia).
    split. { rewrite V by lia. rewrite Q. destruct (Nat.eqb_spec (2 * j - 1) 0); [lia|]. destruct (Nat.leb_spec (2 * j - 1) (2 * ((N - 1) / 2))); [lia|reflexivity]. }
    assert (EN : Nat.even N = true) by (rewrite <- J2, Nat.even_mul; reflexivity). assert (HJ : (N / 2)%nat = j) by (rewrite <- J2, Nat.mul_comm; apply Nat.div_mul; lia).
    unfold ph. rewrite <- HJ, phase_half by (auto; lia). rewrite <- (Rplus_0_l (INR k * PI)). apply sin_eq_0_1. exists (Z.of_nat k). rewrite INR_IZR_INZ. ring. }
  rewrite !tpoly_split by lia. f_equal. f_equal; [f_equal|].
  - rewrite V by lia. cbn [Nat.eqb]. f_equal. f_equal. apply Sig_ext. intros i Hi. pose proof (Nat.div_mod N 2 ltac:(lia)) as DN. pose proof (Nat.mod_upper_bound N 2 ltac:(lia)).
    rewrite !mode_odd, !mode_even by lia. rewrite !Rmult_minus_distr_l, cos_minus, sin_minus. destruct (Nat.ltb_spec (2 * (i + 1)) N) as [J|J].
    + destruct (P1 (i + 1)%nat ltac:(lia) J) as (-> & ->). ring.
    + destruct (P2 (i + 1)%nat ltac:(lia) ltac:(lia)) as (-> & ->). ring.
  - destruct (Nat.even N) eqn:EN; [|reflexivity]. destruct (parity N) as [[_ E']|[E' _]]; [|congruence]. set (j := (N / 2)%nat) in *. replace (N - 1)%nat with (2 * j - 1)%nat by lia.
    rewrite !mode_odd by lia. rewrite Rmult_minus_distr_l, cos_minus. destruct (P2 j ltac:(lia) ltac:(lia)) as (-> & ->). ring.
Qed.
(** The source at time t is the trigonometric interpolant of the source at time 0, turned by the angle Omega t: for every number of points, even or odd *)
Theorem C124_rotation M t rho0 crho0 crho rho n : (n < List.length rho0)%nat -> (n < List.length crho0)%nat -> (n < List.length crho)%nat -> (n < List.length rho)%nat ->
  exists c0 rho', four_coeffs crho0 rho0 n = Ok c0 /\ rho_at M t rho0 crho0 crho rho (n + 1) = Ok rho' /\
    forall k, (k <= n)%nat -> tpoly c0 (n + 1) (phase (n + 1) k) = rho0.[k] /\ rho'.[k] = tpoly c0 (n + 1) (phase (n + 1) k - s_Omega M * t).
Proof.
  intros L1 L2 L3 L4. destruct (four_coeffs_ok crho0 rho0 n L2 L1) as (c0 & E1 & N1 & _). destruct (rotate_tpoly c0 crho n (s_Omega M * t) 0 ltac:(lia) L3 ltac:(lia)) as (c' & E2 & N2 & _).
  destruct (four_eval_ok c' rho n ltac:(lia) L4) as (u & E3 & _ & V & _). exists c0, u. split; [exact E1|]. split.
  { unfold rho_at. replace (n + 1 - 1)%nat with n by lia. rewrite E1. cbn [rbind]. rewrite E2. exact E3. }
  intros k Hk. split.
  - destruct (C37_values crho0 rho0 rho n L2 L1 L4) as (c1 & u1 & F1 & F2 & _ & W & _). assert (c1 = c0) by congruence. subst c1.
    destruct (four_eval_ok c0 rho n ltac:(lia) L4) as (u2 & F3 & _ & V2 & _). assert (u2 = u1) by congruence. subst u2. rewrite <- W, V2 by auto. reflexivity.
  - rewrite V by auto. destruct (rotate_tpoly c0 crho n (s_Omega M * t) k ltac:(lia) L3 Hk) as (c2 & F2 & _ & T). assert (c2 = c') by congruence. subst c2. exact T.
Qed.
Print Assumptions C124_rotation.
(** After a time in which the source moves by m grid points, the value of the point l is found m points further, whatever the values are *)
Theorem C124_shift M t rho0 crho0 crho rho n m : (n < List.length rho0)%nat -> (n < List.length crho0)%nat -> (n < List.length crho)%nat -> (n < List.length rho)%nat ->
  s_Omega M * t = 2 * PI * INR m / INR (n + 1) ->
  exists rho', rho_at M t rho0 crho0 crho rho (n + 1) = Ok rho' /\ forall l, (l <= n)%nat -> rho'.[(l + m) mod (n + 1)] = rho0.[l].
Proof.
  intros L1 L2 L3 L4 W. destruct (C124_rotation M t rho0 crho0 crho rho n L1 L2 L3 L4) as (c0 & u & E1 & E2 & H). exists u. split; [exact E2|]. intros l Hl.
  pose proof (Nat.mod_upper_bound (l + m) (n + 1) ltac:(lia)) as MB. pose proof (Nat.div_mod (l + m) (n + 1) ltac:(lia)) as DM. set (k := ((l + m) mod (n + 1))%nat) in *. set (q := ((l + m) / (n + 1))%nat) in *.
  destruct (H k ltac:(lia)) as (_ & ->). destruct (H l Hl) as (<- & _). unfold tpoly. apply Sig_ext. intros i Hi. f_equal. rewrite <- (mode_period i (phase (n + 1) k - s_Omega M * t) q). f_equal.
  rewrite W. unfold phase. assert (N0 : INR (n + 1) <> 0) by (apply not_0_INR; lia). apply (f_equal INR) in DM. rewrite !plus_INR, mult_INR in DM. rewrite <- plus_INR in DM. rewrite !(plus_INR l m) in DM.
  assert (LM : INR l = INR (n + 1) * INR q + INR k - INR m) by (rewrite (plus_INR n 1) in *; lra). rewrite LM. field. exact N0.
Qed.
Print Assumptions C124_shift.
(** If the source at time 0 is a trigonometric polynomial f of the angle that the grid resolves, the source at time t is f(phi - Omega t) *)
Theorem C124_rigid M t rho0 crho0 crho rho p n : (n < List.length rho0)%nat -> (n < List.length crho0)%nat -> (n < List.length crho)%nat -> (n < List.length rho)%nat -> (n < List.length p)%nat ->
  let f := tpoly p (n + 1) in (forall k, (k <= n)%nat -> rho0.[k] = f (phase (n + 1) k)) ->
  exists rho', rho_at M t rho0 crho0 crho rho (n + 1) = Ok rho' /\ forall k, (k <= n)%nat -> rho'.[k] = f (phase (n + 1) k - s_Omega M * t).
Proof.
  intros L1 L2 L3 L4 L5 f F. destruct (C124_rotation M t rho0 crho0 crho rho n L1 L2 L3 L4) as (c0 & u & E1 & E2 & H). exists u. split; [exact E2|]. intros k Hk. destruct (H k Hk) as (_ & ->). unfold f.
  destruct (C37_coeffs p rho0 crho0 n L5 L1 L2) as (u1 & c1 & F1 & F2 & _ & W & _). destruct (four_eval_ok p rho0 n L5 L1) as (u2 & F3 & L6 & V3 & _). assert (u2 = u1) by congruence. subst u2.
  destruct (four_coeffs_ok crho0 rho0 n L2 L1) as (c2 & G1 & _ & V1 & _). assert (c2 = c0) by congruence. subst c2.
  destruct (four_coeffs_ok crho0 u1 n L2 ltac:(lia)) as (c3 & G2 & _ & V4 & _). assert (c3 = c1) by congruence. subst c3.
  unfold tpoly. apply Sig_ext. intros i Hi. f_equal. f_equal. rewrite <- W by lia. rewrite V1, V4 by lia. apply Sig_ext. intros j Hj. rewrite V3, F by lia. reflexivity.
Qed.
Print Assumptions C124_rigid.
Lemma tpoly_one N i a t : (i < N)%nat -> tpoly (upd (repeat 0 N) i a) N t = weight N i * a * mode i t.
Proof.
  intros H. unfold tpoly. rewrite (Sig_ext N _ (fun j => delta i j * (weight N j * a * mode j t))).
  - apply Sig_delta_l. exact H.
  - intros j Hj. unfold delta. destruct (Nat.eqb_spec i j) as [<-|D]. { rewrite nth_upd_eq by (rewrite repeat_length; lia). ring. } rewrite nth_upd_ne by lia. rewrite nth_repeat. ring.
Qed.
(** For the test source, with at least 4 points around the axis, this is the source that ScalarOnKerr_Source itself gives at time t *)
Theorem C124_Y22 M t d z rho0 crho0 crho rho n : (3 <= n)%nat -> (n < List.length rho0)%nat -> (n < List.length crho0)%nat -> (n < List.length crho)%nat -> (n < List.length rho)%nat -> 0 < d ->
  let x := fun k => d * cos (phase (n + 1) k) in let y := fun k => d * sin (phase (n + 1) k) in
  (forall k, (k <= n)%nat -> rho0.[k] = Y22_source M 0 (x k) (y k) z) ->
  exists rho', rho_at M t rho0 crho0 crho rho (n + 1) = Ok rho' /\ forall k, (k <= n)%nat -> rho'.[k] = Y22_source M t (x k) (y k) z.
Proof.
  intros Hn L1 L2 L3 L4 Hd x y F. set (r := sqrt (d * d + z * z)).
  set (A := - (s_q22 M / s_r0 M) * (exp (- (r - s_r0 M) * (r - s_r0 M) / (M * M)) / (sqrt PI * M)) * (sqrt (5 / (96 * PI)) * 1.5 * (1 - cos (2 * (0.5 * PI - asin (z / r)))))).
  assert (S : forall s k, Y22_source M s (x k) (y k) z = A * mode 3 (phase (n + 1) k - s_Omega M * s)).
  { intros s k. unfold Y22_source. cbv zeta. set (ph := phase (n + 1) k). assert (R2 : x k * x k + y k * y k = d * d) by (unfold x, y; fold ph; pose proof (sin2_cos2 ph) as Q; unfold Rsqr in Q; nra).
    rewrite R2. fold r. assert (NZ : x k <> 0 \/ y k <> 0). { destruct (Req_dec (x k) 0) as [X0|]; [|now left]. right. intros Y0. rewrite X0, Y0 in R2. nra. }
    destruct (C68_arg (x k) (y k) NZ) as (AN & _). set (a := Arg (x k) (y k)) in *. destruct AN as (r' & RP & A1 & A2).
    assert (RD : r' = d) by (pose proof (sin2_cos2 a) as Q; unfold Rsqr in Q; rewrite A1, A2 in R2; assert (r' * r' = d * d) by nra; nra). subst r'.
    assert (C1 : cos a = cos ph /\ sin a = sin ph). { unfold x in A1. unfold y in A2. fold ph in A1. fold ph in A2. split; apply (Rmult_eq_reg_l d); lra. } destruct C1 as (C1 & S1).
    assert (E : cos (2 * (s_Omega M * s - a)) = mode 3 (ph - s_Omega M * s)).
    { replace 3%nat with (2 * 2 - 1)%nat by lia. rewrite mode_odd by lia. replace (INR 2) with 2 by (simpl; lra). set (w := s_Omega M * s). replace (2 * (w - a)) with (2 * w - 2 * a) by ring. replace (2 * (ph - w)) with (2 * ph - 2 * w) by ring. rewrite !cos_minus, !(cos_2a a), !(sin_2a a), !(cos_2a ph), !(sin_2a ph), C1, S1. ring. }
    rewrite E. unfold A. ring. }
  assert (W0 : weight (n + 1) 3 <> 0). { assert (N0 : 0 < INR (n + 1)) by (apply lt_0_INR; lia). unfold weight. destruct (_ || _)%bool; apply Rgt_not_eq; unfold Rdiv; apply Rmult_lt_0_compat; try lra; now apply Rinv_0_lt_compat. }
  destruct (C124_rigid M t rho0 crho0 crho rho (upd (repeat 0 (n + 1)) 3 (A / weight (n + 1) 3)) n L1 L2 L3 L4) as (u & E & V).
  - rewrite upd_length, repeat_length. lia.
  - intros k Hk. rewrite F, S by auto. rewrite tpoly_one by lia. rewrite Rmult_0_r, Rminus_0_r. field. exact W0.
  - exists u. split; [exact E|]. intros k Hk. rewrite V, S by auto. rewrite tpoly_one by lia. field. exact W0.
Qed.
Print Assumptions C124_Y22.
(** The angular velocity is that of a circular orbit of radius 10 M (Kepler's third law) *)
Theorem C124_kepler M : 0 < M -> 0 < s_Omega M /\ s_Omega M * s_Omega M * (10 * M * (10 * M) * (10 * M)) = M.
Proof.
  intros P. unfold s_Omega, s_r0. assert (Q : 0 < 10 * M * (10 * M) * (10 * M)) by (repeat apply Rmult_lt_0_compat; lra). assert (D : 0 < M / (10 * M * (10 * M) * (10 * M))) by (now apply Rdiv_lt_0_compat).
  split; [now apply sqrt_lt_R0|]. rewrite sqrt_sqrt by lra. field. lra.
Qed.
Print Assumptions C124_kepler.
(** five points; the source (1, 2, 3, 4, 5) moved by two of them is (4, 5, 1, 2, 3) *)
Example C124_ex : exists M t rho', 0 < M /\ 0 < t /\ rho_at M t [1; 2; 3; 4; 5] (repeat 0 5) (repeat 0 5) (repeat 0 5) 5 = Ok rho' /\ rho'.[0] = 4 /\ rho'.[1] = 5 /\ rho'.[2] = 1.
Proof.
  assert (OP : 0 < s_Omega 1). { unfold s_Omega, s_r0. apply sqrt_lt_R0. replace (1 / (10 * 1 * (10 * 1) * (10 * 1))) with (/ 1000) by field. lra. }
  exists 1, (2 * PI * INR 2 / INR 5 / s_Omega 1). destruct (C124_shift 1 (2 * PI * INR 2 / INR 5 / s_Omega 1) [1; 2; 3; 4; 5] (repeat 0 5) (repeat 0 5) (repeat 0 5) 4 2) as (u & E & V); try (simpl; lia).
  { change (4 + 1)%nat with 5%nat. field. split; try (apply not_0_INR; lia); apply Rgt_not_eq; exact OP. }
  exists u. split; [lra|]. split. { apply Rmult_lt_0_compat; [|now apply Rinv_0_lt_compat]. pose proof PI_RGT_0. simpl. lra. }
  split; [exact E|]. split; [exact (V 3%nat ltac:(lia))|]. split; [exact (V 4%nat ltac:(lia))|exact (V 0%nat ltac:(lia))].
Qed.
