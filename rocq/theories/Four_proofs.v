From Verif Require Export Trig Arrays Four_model Four_spec.
Local Open Scope R_scope.

Lemma mode_0 t : mode 0 t = 1. Proof. reflexivity. Qed.
Lemma mode_odd j t : (1 <= j)%nat -> mode (2 * j - 1) t = cos (INR j * t).
Proof.
  intros H. unfold mode. replace (Nat.even (2 * j - 1)) with false.
  - replace (2 * j - 1 + 1)%nat with (j * 2)%nat by lia. now rewrite Nat.div_mul by lia.
  - symmetry. replace (2 * j - 1)%nat with (2 * (j - 1) + 1)%nat by lia. now rewrite Nat.even_add, Nat.even_mul.
Qed.
Lemma mode_even j t : (1 <= j)%nat -> mode (2 * j) t = sin (INR j * t).
Proof.
  intros H. unfold mode. rewrite Nat.even_mul. cbn [Nat.even orb]. destruct (Nat.eqb_spec (2 * j) 0); [lia|]. replace (2 * j)%nat with (j * 2)%nat by lia. now rewrite Nat.div_mul by lia.
Qed.
Lemma even_S2 N : Nat.even N = (N mod 2 =? 0)%nat.
Proof.
  destruct (Nat.even N) eqn:E.
  - apply Nat.even_spec in E. destruct E as [m ->]. rewrite Nat.mul_comm, Nat.mod_mul by lia. auto.
  - rewrite <- Nat.negb_odd in E. apply negb_false_iff in E. apply Nat.odd_spec in E. destruct E as [m ->]. rewrite Nat.add_comm, Nat.mul_comm, Nat.mod_add by lia. auto.
Qed.
(** N = 2M+1 or N = 2M with M = N/2 *)
Lemma parity N : (Nat.even N = true /\ N = (2 * (N / 2))%nat) \/ (Nat.even N = false /\ N = (2 * (N / 2) + 1)%nat).
Proof.
  rewrite even_S2. pose proof (Nat.div_mod N 2 ltac:(lia)) as E. pose proof (Nat.mod_upper_bound N 2 ltac:(lia)). destruct (Nat.eqb_spec (N mod 2) 0); [left|right]; split; auto; lia.
Qed.

Lemma pairs_odd M g : Sig (2 * M + 1) g = g 0%nat + Sig M (fun i => g (2 * (i + 1) - 1)%nat + g (2 * (i + 1))%nat).
Proof.
  induction M as [|M IH]. { simpl. ring. }
  replace (2 * S M + 1)%nat with (S (S (2 * M + 1))) by lia. rewrite !Sig_S, IH. replace (2 * (M + 1) - 1)%nat with (2 * M + 1)%nat by lia. replace (2 * (M + 1))%nat with (S (2 * M + 1)) by lia. ring.
Qed.
Lemma pairs_split N g : (1 <= N)%nat -> Sig N g = g 0%nat + Sig (N / 2) (fun i => g (2 * (i + 1) - 1)%nat + if (2 * (i + 1) <? N)%nat then g (2 * (i + 1))%nat else 0).
Proof.
  intros HN. destruct (parity N) as [[_ E]|[_ E]]; set (M := (N / 2)%nat) in *.
  - destruct M as [|m] eqn:EM; [lia|]. rewrite Sig_S. rewrite (Sig_ext m _ (fun i => g (2 * (i + 1) - 1)%nat + g (2 * (i + 1))%nat)).
    2:{ intros i Hi. destruct (Nat.ltb_spec (2 * (i + 1)) N); [auto|lia]. }
    destruct (Nat.ltb_spec (2 * (m + 1)) N); [lia|]. replace N with (S (2 * m + 1)) by lia. rewrite Sig_S, pairs_odd. replace (2 * (m + 1) - 1)%nat with (2 * m + 1)%nat by lia. ring.
  - rewrite (Sig_ext M _ (fun i => g (2 * (i + 1) - 1)%nat + g (2 * (i + 1))%nat)).
    2:{ intros i Hi. destruct (Nat.ltb_spec (2 * (i + 1)) N); [auto|lia]. }
    rewrite E at 1. apply pairs_odd.
Qed.
(** indices below N are 0, 2j-1 or 2j *)
Lemma index_cases N i : (i < N)%nat -> i = 0%nat \/ (exists j, (1 <= j /\ 2 * j <= N)%nat /\ i = (2 * j - 1)%nat) \/ (exists j, (1 <= j /\ 2 * j < N)%nat /\ i = (2 * j)%nat).
Proof.
  intros H. destruct (Nat.eq_dec i 0); [auto|right]. destruct (parity i) as [[_ E]|[_ E]].
  - right. exists (i / 2)%nat. split; lia.
  - left. exists (i / 2 + 1)%nat. split; lia.
Qed.

(** weights *)
Lemma weight_0 N : weight N 0 = 1 / INR N. Proof. reflexivity. Qed.
Lemma weight_in N i : (1 <= i)%nat -> (i + 1 < N \/ Nat.even N = false)%nat -> weight N i = 2 / INR N.
Proof.
  intros H0 H. unfold weight. destruct (Nat.eqb_spec i 0); [lia|]. destruct (Nat.even N), (Nat.eqb_spec (i + 1) N); cbn [andb orb]; auto. destruct H; [lia|discriminate].
Qed.
Lemma weight_ny N : Nat.even N = true -> (1 <= N)%nat -> weight N (N - 1) = 1 / INR N.
Proof. intros E H. unfold weight. rewrite E. destruct (Nat.eqb_spec (N - 1 + 1) N); [|lia]. cbn [andb]. now rewrite orb_true_r. Qed.

(** orthogonality *)
Lemma phase_m N k m : INR m * phase N k = 0 + INR k * (2 * INR m * PI / INR N).
Proof. unfold phase, Rdiv. ring. Qed.
Lemma Csum N m : (1 <= N)%nat -> (m <= N)%nat -> Sig N (fun k => cos (INR m * phase N k)) = if ((m =? 0) || (m =? N))%nat then INR N else 0.
Proof.
  intros HN H. assert (N0 : INR N <> 0) by (apply not_0_INR; lia).
  destruct (Nat.eqb_spec m 0) as [->|M0]; [|destruct (Nat.eqb_spec m N) as [->|MN]]; cbn [orb].
  - rewrite (Sig_ext N _ (fun _ => 1)). { rewrite Sig_const. ring. } intros. simpl. rewrite Rmult_0_l. apply cos_0.
  - rewrite (Sig_ext N _ (fun _ => 1)). { rewrite Sig_const. ring. } intros i _. unfold phase. replace (INR N * (2 * PI * INR i / INR N)) with (0 + 2 * INR i * PI) by (field; auto). rewrite cos_plus_2nPI. apply cos_0.
  - rewrite <- (period_cos N m 0) by lia. apply Sig_ext. intros. now rewrite phase_m.
Qed.
Lemma Ssum N m : (1 <= N)%nat -> (m <= N)%nat -> Sig N (fun k => sin (INR m * phase N k)) = 0.
Proof.
  intros HN H. assert (N0 : INR N <> 0) by (apply not_0_INR; lia).
  destruct (Nat.eq_dec m 0) as [->|M0]; [|destruct (Nat.eq_dec m N) as [->|MN]].
  - apply Sig_zero. intros. simpl. rewrite Rmult_0_l. apply sin_0.
  - apply Sig_zero. intros i _. unfold phase. replace (INR N * (2 * PI * INR i / INR N)) with (0 + 2 * INR i * PI) by (field; auto). rewrite sin_plus_2nPI. apply sin_0.
  - rewrite <- (period_sin N m 0) by lia. apply Sig_ext. intros. now rewrite phase_m.
Qed.
Definition adiff (j l : nat) : nat := if (j <=? l)%nat then (l - j)%nat else (j - l)%nat.
Lemma sin_absdiff j l : exists s, (s = 1 \/ s = -1) /\ forall x', sin (INR j * x' - INR l * x') = s * sin (INR (adiff j l) * x').
Proof.
  unfold adiff. destruct (Nat.leb_spec j l).
  - exists (-1). split; auto. intros. rewrite minus_INR by auto. rewrite <- Rmult_minus_distr_r. replace ((INR j - INR l) * x') with (- ((INR l - INR j) * x')) by ring. rewrite sin_neg. ring.
  - exists 1. split; auto. intros. rewrite minus_INR by lia. rewrite Rmult_1_l. f_equal. ring.
Qed.
Lemma orth_cc N j l : (1 <= N)%nat -> (j + l <= N)%nat ->
  Sig N (fun k => cos (INR j * phase N k) * cos (INR l * phase N k)) = / 2 * ((if (adiff j l =? 0)%nat then INR N else 0) + (if ((j + l =? 0) || (j + l =? N))%nat then INR N else 0)) \/ adiff j l = N.
Proof.
  intros HN H. destruct (Nat.eq_dec (adiff j l) N) as [E|NE]; [auto|left].
  rewrite (Sig_ext N _ (fun k => / 2 * cos (INR (adiff j l) * phase N k) + / 2 * cos (INR (j + l) * phase N k))).
  - rewrite Sig_plus, !Sig_scal. rewrite Csum; [|lia|unfold adiff; destruct (Nat.leb_spec j l); lia]. rewrite Csum by lia.
    destruct (Nat.eqb_spec (adiff j l) N); [lia|]. rewrite orb_false_r. ring.
  - intros k _. rewrite cos_cos_prod. rewrite cos_absdiff. fold (adiff j l). rewrite <- Rmult_plus_distr_r, <- plus_INR. field.
Qed.
Lemma orth_ss N j l : (1 <= N)%nat -> (j + l < N)%nat ->
  Sig N (fun k => sin (INR j * phase N k) * sin (INR l * phase N k)) = / 2 * ((if (adiff j l =? 0)%nat then INR N else 0) - (if (j + l =? 0)%nat then INR N else 0)).
Proof.
  intros HN H.
  rewrite (Sig_ext N _ (fun k => / 2 * cos (INR (adiff j l) * phase N k) - / 2 * cos (INR (j + l) * phase N k))).
  - rewrite Sig_minus, !Sig_scal. assert (adiff j l < N)%nat by (unfold adiff; destruct (Nat.leb_spec j l); lia). rewrite !Csum by lia.
    destruct (Nat.eqb_spec (adiff j l) N), (Nat.eqb_spec (j + l) N); try lia. rewrite !orb_false_r. ring.
  - intros k _. rewrite sin_sin_prod. rewrite cos_absdiff. fold (adiff j l). rewrite <- Rmult_plus_distr_r, <- plus_INR. field.
Qed.
Lemma orth_sc N j l : (1 <= N)%nat -> (j + l <= N)%nat -> Sig N (fun k => sin (INR j * phase N k) * cos (INR l * phase N k)) = 0.
Proof.
  intros HN H. destruct (sin_absdiff j l) as (s & _ & Hs).
  rewrite (Sig_ext N _ (fun k => s / 2 * sin (INR (adiff j l) * phase N k) + / 2 * sin (INR (j + l) * phase N k))).
  - rewrite Sig_plus, !Sig_scal. rewrite !Ssum; auto. { ring. } unfold adiff. destruct (Nat.leb_spec j l); lia.
  - intros k _. rewrite sin_cos_prod, Hs. rewrite <- Rmult_plus_distr_r, <- plus_INR. field.
Qed.
Lemma adiff0 j : adiff j j = 0%nat. Proof. unfold adiff. rewrite Nat.leb_refl. lia. Qed.
Lemma adiff_ne j l : j <> l -> (adiff j l =? 0)%nat = false.
Proof. intros. apply Nat.eqb_neq. unfold adiff. destruct (Nat.leb_spec j l); lia. Qed.

Lemma orth_k N i i' : (i < N)%nat -> (i' < N)%nat -> weight N i' * Sig N (fun k => mode i (phase N k) * mode i' (phase N k)) = delta i i'.
Proof.
  intros Hi Hi'. assert (N0 : INR N <> 0) by (apply not_0_INR; lia). assert (HN : (1 <= N)%nat) by lia.
  destruct (index_cases N i Hi) as [->|[(j & [J1 J2] & ->)|(j & [J1 J2] & ->)]]; destruct (index_cases N i' Hi') as [->|[(l & [L1 L2] & ->)|(l & [L1 L2] & ->)]].
  - rewrite delta_eq, weight_0. rewrite (Sig_ext N _ (fun _ => 1)) by (intros; rewrite mode_0; ring). rewrite Sig_const. field. auto.
  - rewrite delta_ne by lia. rewrite (Sig_ext N _ (fun k => cos (INR l * phase N k))) by (intros; rewrite mode_0, mode_odd by auto; ring). rewrite Csum by lia.
    destruct (Nat.eqb_spec l 0), (Nat.eqb_spec l N); try lia; cbn [orb]. ring.
  - rewrite delta_ne by lia. rewrite (Sig_ext N _ (fun k => sin (INR l * phase N k))) by (intros; rewrite mode_0, mode_even by auto; ring). rewrite Ssum by lia. ring.
  - rewrite delta_ne by lia. rewrite (Sig_ext N _ (fun k => cos (INR j * phase N k))) by (intros; rewrite mode_0, mode_odd by auto; ring). rewrite Csum by lia.
    destruct (Nat.eqb_spec j 0), (Nat.eqb_spec j N); try lia; cbn [orb]. ring.
  - rewrite (Sig_ext N _ (fun k => cos (INR j * phase N k) * cos (INR l * phase N k))) by (intros; rewrite !mode_odd by auto; ring).
    destruct (orth_cc N j l HN ltac:(lia)) as [E|E]. 2:{ unfold adiff in E. destruct (Nat.leb_spec j l); lia. } rewrite E.
    destruct (Nat.eq_dec j l) as [->|NE].
    + rewrite delta_eq, adiff0. cbn [Nat.eqb]. destruct (Nat.eqb_spec (l + l) 0); [lia|]. destruct (Nat.eqb_spec (l + l) N) as [EN|EN]; cbn [orb].
      * replace (2 * l - 1)%nat with (N - 1)%nat by lia. rewrite weight_ny; auto. { field. auto. } rewrite <- EN. replace (l + l)%nat with (2 * l)%nat by lia. now rewrite Nat.even_mul.
      * rewrite weight_in by lia. field. auto.
    + rewrite delta_ne by lia. rewrite adiff_ne by auto. destruct (Nat.eqb_spec (j + l) 0), (Nat.eqb_spec (j + l) N); try lia; cbn [orb]. ring.
  - rewrite delta_ne by lia. rewrite (Sig_ext N _ (fun k => sin (INR l * phase N k) * cos (INR j * phase N k))) by (intros; rewrite mode_odd, mode_even by auto; ring). rewrite orth_sc by lia. ring.
  - rewrite delta_ne by lia. rewrite (Sig_ext N _ (fun k => sin (INR j * phase N k))) by (intros; rewrite mode_0, mode_even by auto; ring). rewrite Ssum by lia. ring.
  - rewrite delta_ne by lia. rewrite (Sig_ext N _ (fun k => sin (INR j * phase N k) * cos (INR l * phase N k))) by (intros; rewrite mode_odd, mode_even by auto; ring). rewrite orth_sc by lia. ring.
  - rewrite (Sig_ext N _ (fun k => sin (INR j * phase N k) * sin (INR l * phase N k))) by (intros; rewrite !mode_even by auto; ring). rewrite orth_ss by lia.
    destruct (Nat.eqb_spec (j + l) 0); [lia|]. destruct (Nat.eq_dec j l) as [->|NE].
    + rewrite delta_eq, adiff0. cbn [Nat.eqb]. rewrite weight_in; [field; auto|lia|]. destruct (parity N) as [[_ E]|[E _]]; [left; lia|auto].
    + rewrite delta_ne by lia. rewrite adiff_ne by auto. ring.
Qed.

Lemma phase_diff N k m x : cos (x * phase N k - x * phase N m) = cos (x * phase N (adiff k m)).
Proof.
  unfold phase. replace (x * (2 * PI * INR k / INR N) - x * (2 * PI * INR m / INR N)) with (INR k * (x * (2 * PI / INR N)) - INR m * (x * (2 * PI / INR N))) by (unfold Rdiv; ring).
  rewrite cos_absdiff. fold (adiff k m). f_equal. unfold Rdiv. ring.
Qed.
Lemma phase_half N k : Nat.even N = true -> (1 <= N)%nat -> INR (N / 2) * phase N k = INR k * PI.
Proof.
  intros E H. destruct (parity N) as [[_ E']|[E' _]]; [|congruence]. unfold phase. rewrite E' at 2. rewrite mult_INR. simpl (INR 2). field. apply not_0_INR. lia.
Qed.
Lemma orth_i N k m : (k < N)%nat -> (m < N)%nat -> Sig N (fun i => weight N i * (mode i (phase N k) * mode i (phase N m))) = delta k m.
Proof.
  intros Hk Hm. assert (N0 : INR N <> 0) by (apply not_0_INR; lia). assert (HN : (1 <= N)%nat) by lia.
  rewrite pairs_split by auto. rewrite !mode_0, weight_0. set (d := adiff k m).
  rewrite (Sig_ext (N / 2) _ (fun i => weight N (2 * (i + 1) - 1) * cos (INR (i + 1) * phase N d))).
  2:{ intros i Hi. unfold d. rewrite <- phase_diff, cos_minus, !mode_odd, !mode_even by lia. destruct (Nat.ltb_spec (2 * (i + 1)) N) as [L|L].
      - rewrite (weight_in N (2 * (i + 1) - 1)) by (try left; lia). rewrite (weight_in N (2 * (i + 1))); [ring|lia|]. destruct (parity N) as [[_ E]|[E _]]; [left; lia|auto].
      - destruct (parity N) as [[Ev E]|[_ E]]; [|lia]. replace (i + 1)%nat with (N / 2)%nat by lia. rewrite !phase_half, !sin_nPI by auto. ring. }
  destruct (parity N) as [[Ev E]|[Ev E]].
  - destruct (N / 2)%nat as [|p] eqn:EM; [lia|]. rewrite Sig_S. replace (2 * (p + 1) - 1)%nat with (N - 1)%nat by lia. rewrite weight_ny by auto.
    replace (p + 1)%nat with (N / 2)%nat by lia. rewrite phase_half, cos_nPI by auto.
    rewrite (Sig_ext p _ (fun i => 2 / INR N * cos (INR (i + 1) * (INR d * PI / INR (S p))))).
    2:{ intros i Hi. rewrite weight_in by lia. do 2 f_equal. unfold phase. f_equal. rewrite E. rewrite mult_INR. simpl (INR 2). field. apply not_0_INR. lia. }
    rewrite Sig_scal. destruct (Nat.eq_dec k m) as [->|NE].
    + rewrite delta_eq. unfold d. rewrite adiff0. rewrite (Sig_ext p _ (fun _ => 1)). 2:{ intros. simpl (INR 0). replace (INR (i + 1) * (0 * PI / INR (S p))) with 0 by (field; apply not_0_INR; lia). apply cos_0. }
      rewrite Sig_const. simpl ((-1) ^ 0). assert (EN : INR N = 2 * (INR p + 1)) by (rewrite E, mult_INR, (S_INR p); simpl (INR 2); ring). rewrite EN. field. pose proof (pos_INR p). lra.
    + rewrite delta_ne by auto. pose proof (dirichlet_frac (S p) d ltac:(lia)) as D. replace (S p - 1)%nat with p in D by lia.
      assert (DD : (0 < d < 2 * S p)%nat) by (unfold d, adiff; destruct (Nat.leb_spec k m); lia). specialize (D DD).
      replace (Sig p (fun k0 => cos (INR (k0 + 1) * (INR d * PI / INR (S p))))) with (- (-1) ^ d / 2 - / 2) by lra. field. auto.
  - set (M := (N / 2)%nat) in *. rewrite (Sig_ext M _ (fun i => 2 / INR N * cos (INR (i + 1) * phase N d))) by (intros i Hi; rewrite weight_in by (auto; lia); auto). rewrite Sig_scal.
    destruct (Nat.eq_dec k m) as [->|NE].
    + rewrite delta_eq. unfold d. rewrite adiff0. rewrite (Sig_ext M _ (fun _ => 1)). 2:{ intros. unfold phase. simpl (INR 0). replace (INR (i + 1) * (2 * PI * 0 / INR N)) with 0 by (field; auto). apply cos_0. }
      rewrite Sig_const. rewrite E. rewrite plus_INR, mult_INR. simpl (INR 2). simpl (INR 1). field. pose proof (pos_INR M). lra.
    + rewrite delta_ne by auto. pose proof (dirichlet (M + 1) (phase N d) ltac:(lia)) as D. replace (M + 1 - 1)%nat with M in D by lia.
      replace ((INR (M + 1) - / 2) * phase N d) with (INR d * PI) in D. 2:{ unfold phase. rewrite E. rewrite !plus_INR, mult_INR. simpl (INR 2). simpl (INR 1). field. pose proof (pos_INR M). lra. }
      rewrite sin_nPI in D. assert (SP : 0 < sin (phase N d / 2)). { replace (phase N d / 2) with (INR d * PI / INR N) by (unfold phase; field; auto). apply sin_frac_pos. unfold d, adiff. destruct (Nat.leb_spec k m); lia. }
      assert (D2 : / 2 + Sig M (fun k0 => cos (INR (k0 + 1) * phase N d)) = 0) by (apply (Rmult_eq_reg_l (2 * sin (phase N d / 2))); lra).
      replace (Sig M (fun i => cos (INR (i + 1) * phase N d))) with (- / 2) by lra. field. auto.
Qed.

(** *** What each routine computes *)
Lemma sum_loop2 n (body : nat -> R * R -> res (R * R)) (f g : nat -> R) :
  (forall k s, (k < n)%nat -> body k s = Ok (fst s + f k, snd s + g k)) -> for_nat 0 n body (0, 0) = Ok (Sig n f, Sig n g).
Proof.
  intros H. destruct (for_nat_inv (fun i s => s = (Sig i f, Sig i g)) body 0 n (0, 0)) as (s & E & P); auto; [lia| |].
  - intros i s Hi ->. eexists. rewrite H by lia. split; [reflexivity|]. rewrite Nat.add_1_r, !Sig_S. reflexivity.
  - now rewrite E, P.
Qed.
Lemma pairs_fill N c (body : nat -> list R -> res (list R)) (V : nat -> R) : (N <= List.length c)%nat ->
  (forall j s, (1 <= j <= N / 2)%nat -> List.length s = List.length c -> body j s = (do s1 <- wr s (2 * j - 1) (V (2 * j - 1)%nat); if (2 * j <? N)%nat then wr s1 (2 * j) (V (2 * j)%nat) else Ok s1)) ->
  exists c', for_nat 1 (N / 2 + 1) body c = Ok c' /\ List.length c' = List.length c /\ forall m, c'.[m] = if ((1 <=? m) && (m <? N))%nat then V m else c.[m].
Proof.
  intros L H. pose proof (parity N) as PN.
  destruct (for_nat_inv (fun i s => List.length s = List.length c /\ forall m, s.[m] = if ((1 <=? m) && (m <? N) && (m <? 2 * i - 1))%nat then V m else c.[m]) body 1 (N / 2 + 1) c) as (c' & E & P1 & P2).
  - lia.
  - split; auto. intros m. destruct (Nat.leb_spec 1 m), (Nat.ltb_spec m N), (Nat.ltb_spec m (2 * 1 - 1)); cbn [andb]; auto; lia.
  - intros i s Hi [P1 P2]. rewrite H by (auto; lia). assert (2 * i <= N)%nat by lia. rewrite wr_ok by lia. cbn [rbind]. destruct (Nat.ltb_spec (2 * i) N) as [G|G].
    + rewrite wr_ok by (rewrite upd_length; lia). eexists. split; [reflexivity|]. rewrite !upd_length. split; auto. intros m.
      destruct (Nat.eq_dec m (2 * i)) as [->|N1]; [|destruct (Nat.eq_dec m (2 * i - 1)) as [->|N2]].
      * rewrite nth_upd_eq by (rewrite upd_length; lia). destruct (Nat.leb_spec 1 (2 * i)), (Nat.ltb_spec (2 * i) N), (Nat.ltb_spec (2 * i) (2 * (i + 1) - 1)); cbn [andb]; auto; lia.
      * rewrite nth_upd_ne by lia. rewrite nth_upd_eq by lia. destruct (Nat.leb_spec 1 (2 * i - 1)), (Nat.ltb_spec (2 * i - 1) N), (Nat.ltb_spec (2 * i - 1) (2 * (i + 1) - 1)); cbn [andb]; auto; lia.
      * rewrite !nth_upd_ne by lia. rewrite P2. destruct (Nat.leb_spec 1 m), (Nat.ltb_spec m N), (Nat.ltb_spec m (2 * i - 1)), (Nat.ltb_spec m (2 * (i + 1) - 1)); cbn [andb]; auto; lia.
    + eexists. split; [reflexivity|]. rewrite !upd_length. split; auto. intros m. destruct (Nat.eq_dec m (2 * i - 1)) as [->|N2].
      * rewrite nth_upd_eq by lia. destruct (Nat.leb_spec 1 (2 * i - 1)), (Nat.ltb_spec (2 * i - 1) N), (Nat.ltb_spec (2 * i - 1) (2 * (i + 1) - 1)); cbn [andb]; auto; lia.
      * rewrite !nth_upd_ne by lia. rewrite P2. destruct (Nat.leb_spec 1 m), (Nat.ltb_spec m N), (Nat.ltb_spec m (2 * i - 1)), (Nat.ltb_spec m (2 * (i + 1) - 1)); cbn [andb]; auto; lia.
  - exists c'. repeat split; auto. intros m. rewrite P2. destruct (Nat.leb_spec 1 m), (Nat.ltb_spec m N), (Nat.ltb_spec m (2 * (N / 2 + 1) - 1)); cbn [andb]; auto; lia.
Qed.
Lemma pairs_fill2 J c (body : nat -> list R -> res (list R)) (V : list R -> nat -> R) : (1 <= J)%nat -> (2 * J - 1 <= List.length c)%nat ->
  (forall j s, (1 <= j < J)%nat -> List.length s = List.length c -> s.[2 * j - 1] = c.[2 * j - 1] -> s.[2 * j] = c.[2 * j] -> body j s = Ok (upd (upd s (2 * j - 1) (V c (2 * j - 1)%nat)) (2 * j) (V c (2 * j)%nat))) ->
  exists c', for_nat 1 J body c = Ok c' /\ List.length c' = List.length c /\ forall m, c'.[m] = if ((1 <=? m) && (m <? 2 * J - 1))%nat then V c m else c.[m].
Proof.
  intros HJ L H.
  destruct (for_nat_inv (fun i s => List.length s = List.length c /\ forall m, s.[m] = if ((1 <=? m) && (m <? 2 * i - 1))%nat then V c m else c.[m]) body 1 J c) as (c' & E & P1 & P2).
  - lia.
  - split; auto. intros m. destruct (Nat.leb_spec 1 m), (Nat.ltb_spec m (2 * 1 - 1)); cbn [andb]; auto; lia.
  - intros i s Hi [P1 P2]. rewrite H; auto.
    + eexists. split; [reflexivity|]. rewrite !upd_length. split; auto. intros m.
      destruct (Nat.eq_dec m (2 * i)) as [->|N1]; [|destruct (Nat.eq_dec m (2 * i - 1)) as [->|N2]].
      * rewrite nth_upd_eq by (rewrite upd_length; lia). destruct (Nat.leb_spec 1 (2 * i)), (Nat.ltb_spec (2 * i) (2 * (i + 1) - 1)); cbn [andb]; auto; lia.
      * rewrite nth_upd_ne by lia. rewrite nth_upd_eq by lia. destruct (Nat.leb_spec 1 (2 * i - 1)), (Nat.ltb_spec (2 * i - 1) (2 * (i + 1) - 1)); cbn [andb]; auto; lia.
      * rewrite !nth_upd_ne by lia. rewrite P2. destruct (Nat.leb_spec 1 m), (Nat.ltb_spec m (2 * i - 1)), (Nat.ltb_spec m (2 * (i + 1) - 1)); cbn [andb]; auto; lia.
    + rewrite P2. destruct (Nat.leb_spec 1 (2 * i - 1)), (Nat.ltb_spec (2 * i - 1) (2 * i - 1)); cbn [andb]; auto; lia.
    + rewrite P2. destruct (Nat.leb_spec 1 (2 * i)), (Nat.ltb_spec (2 * i) (2 * i - 1)); cbn [andb]; auto; lia.
  - exists c'. auto.
Qed.
Lemma arg_phase N j k : (1 <= N)%nat -> INR j * (2.0 * PI / INR N) * INR k = INR j * phase N k.
Proof. intros. unfold phase. replace 2.0 with 2 by lra. unfold Rdiv. ring. Qed.
Lemma arg_phase_alt N j k : (1 <= N)%nat -> INR j * (PI * (2.0 / INR N)) * INR k = INR j * phase N k.
Proof. intros. unfold phase. replace 2.0 with 2 by lra. unfold Rdiv. ring. Qed.
Lemma first_coeff c u N : (1 <= List.length c)%nat -> (N <= List.length u)%nat ->
  exists c1, (do c <- wr c 0 0; for_nat 0 N (fun k c => do x <- rd u k; do c0 <- rd c 0; wr c 0 (c0 + x)) c) = Ok c1 /\ List.length c1 = List.length c /\
    c1.[0] = Sig N (fun k => u.[k]) /\ forall m, (1 <= m)%nat -> c1.[m] = c.[m].
Proof.
  intros Lc Lu. rewrite wr_ok by lia. cbn [rbind].
  destruct (for_nat_inv (fun i s => List.length s = List.length c /\ s.[0] = Sig i (fun k => u.[k]) /\ forall m, (1 <= m)%nat -> s.[m] = c.[m]) (fun k c => do x <- rd u k; do c0 <- rd c 0; wr c 0 (c0 + x)) 0 N (upd c 0 0)) as (c1 & E & P1 & P2 & P3).
  - lia.
  - rewrite upd_length. split; auto. split. { now rewrite nth_upd_eq by lia. } intros. now rewrite nth_upd_ne by lia.
  - intros i s Hi (P1 & P2 & P3). rewrite (rd_ok u i 0) by lia. cbn [rbind]. rewrite (rd_ok s 0%nat 0) by lia. cbn [rbind]. rewrite wr_ok by lia.
    eexists. split; [reflexivity|]. rewrite upd_length. split; auto. split. { rewrite nth_upd_eq by lia. rewrite P2, Nat.add_1_r, Sig_S. auto. } intros. rewrite nth_upd_ne by lia. auto.
  - exists c1. auto.
Qed.
Lemma four_coeffs_ok c u n : (n < List.length c)%nat -> (n < List.length u)%nat ->
  exists c', four_coeffs c u n = Ok c' /\ List.length c' = List.length c /\
    (forall i, (i <= n)%nat -> c'.[i] = Sig (n + 1) (fun k => mode i (phase (n + 1) k) * u.[k])) /\ (forall i, (n < i)%nat -> c'.[i] = c.[i]).
Proof.
  intros Lc Lu. unfold four_coeffs. set (N := (n + 1)%nat). destruct (first_coeff c u N) as (c1 & E1 & L1 & Z1 & O1); try lia.
  rewrite wr_ok in E1 by lia. cbn [rbind] in E1. rewrite wr_ok by lia. cbn [rbind]. cbv zeta. rewrite E1. cbn [rbind].
  match goal with |- context [for_nat 1 (N / 2 + 1) ?B c1] => destruct (pairs_fill N c1 B (fun i => Sig N (fun k => mode i (phase N k) * u.[k]))) as (c2 & E2 & L2 & V2) end.
  - lia.
  - intros j s Hj Ls. rewrite (sum_loop2 N _ (fun k => mode (2 * j - 1) (phase N k) * u.[k]) (fun k => mode (2 * j) (phase N k) * u.[k])). { reflexivity. }
    intros k t Hk. rewrite (rd_ok u k 0) by lia. cbn [rbind]. rewrite arg_phase by lia. rewrite mode_odd, mode_even by lia. reflexivity.
  - exists c2. rewrite E2. split; auto. split; [lia|]. split; intros i Hi; rewrite V2.
    + destruct (Nat.leb_spec 1 i), (Nat.ltb_spec i N); cbn [andb]; auto; try lia. replace i with 0%nat by lia. rewrite Z1. apply Sig_ext. intros. rewrite mode_0. ring.
    + destruct (Nat.leb_spec 1 i), (Nat.ltb_spec i N); cbn [andb]; auto; try lia.
Qed.
Lemma four_sum_ok c N j : (1 <= N)%nat -> (N <= List.length c)%nat ->
  four_sum c N j = Ok (Sig (N / 2) (fun i => c.[2 * (i + 1) - 1] * mode (2 * (i + 1) - 1) (phase N j) + if (2 * (i + 1) <? N)%nat then c.[2 * (i + 1)] * mode (2 * (i + 1)) (phase N j) else 0)).
Proof.
  intros HN L. pose proof (parity N) as PN. unfold four_sum. cbv zeta.
  rewrite (sum_loop 1 (N / 2 + 1) _ (fun k => c.[2 * k - 1] * mode (2 * k - 1) (phase N j) + if (2 * k <? N)%nat then c.[2 * k] * mode (2 * k) (phase N j) else 0)).
  - rewrite Rplus_0_l. f_equal. replace (N / 2 + 1 - 1)%nat with (N / 2)%nat by lia. apply Sig_ext. intros i Hi. now rewrite (Nat.add_comm 1 i).
  - intros k s Hk. rewrite (rd_ok c (2 * k - 1)%nat 0) by lia. cbn [rbind]. rewrite arg_phase by lia. rewrite mode_odd, mode_even by lia.
    destruct (Nat.ltb_spec (2 * k) N). { rewrite (rd_ok c (2 * k)%nat 0) by lia. cbn [rbind]. f_equal. ring. } cbn [rbind]. f_equal. ring.
Qed.
Lemma mode_ny N k : Nat.even N = true -> (1 <= N)%nat -> mode (N - 1) (phase N k) = (-1) ^ k.
Proof.
  intros E HN. destruct (parity N) as [[_ E']|[E' _]]; [|congruence]. replace (N - 1)%nat with (2 * (N / 2) - 1)%nat by lia. rewrite mode_odd by lia. rewrite phase_half by auto. apply cos_nPI.
Qed.
(** value of the represented trigonometric polynomial, split as in the code *)
Lemma tpoly_split c N t : (1 <= N)%nat -> tpoly c N t =
  (c.[0] + 2 * Sig (N / 2) (fun i => c.[2 * (i + 1) - 1] * mode (2 * (i + 1) - 1) t + if (2 * (i + 1) <? N)%nat then c.[2 * (i + 1)] * mode (2 * (i + 1)) t else 0)
    - (if Nat.even N then c.[N - 1] * mode (N - 1) t else 0)) / INR N.
Proof.
  intros HN. assert (N0 : INR N <> 0) by (apply not_0_INR; lia). unfold tpoly. rewrite pairs_split by auto. rewrite weight_0, mode_0.
  destruct (parity N) as [[Ev E]|[Ev E]]; rewrite Ev.
  - destruct (N / 2)%nat as [|p] eqn:EM; [lia|]. rewrite !Sig_S. destruct (Nat.ltb_spec (2 * (p + 1)) N); [lia|]. replace (2 * (p + 1) - 1)%nat with (N - 1)%nat by lia. rewrite weight_ny by auto.
    rewrite (Sig_ext p _ (fun i => 2 / INR N * (c.[2 * (i + 1) - 1] * mode (2 * (i + 1) - 1) t + (if (2 * (i + 1) <? N)%nat then c.[2 * (i + 1)] * mode (2 * (i + 1)) t else 0)))).
    + rewrite Sig_scal. field. auto.
    + intros i Hi. destruct (Nat.ltb_spec (2 * (i + 1)) N); [|lia]. rewrite !weight_in by (try left; lia). field. auto.
  - rewrite (Sig_ext (N / 2) _ (fun i => 2 / INR N * (c.[2 * (i + 1) - 1] * mode (2 * (i + 1) - 1) t + (if (2 * (i + 1) <? N)%nat then c.[2 * (i + 1)] * mode (2 * (i + 1)) t else 0)))).
    + rewrite Sig_scal. field. auto.
    + intros i Hi. destruct (Nat.ltb_spec (2 * (i + 1)) N); [|lia]. rewrite !weight_in by (auto; lia). field. auto.
Qed.
Lemma four_eval_ok c u n : (n < List.length c)%nat -> (n < List.length u)%nat ->
  exists u', four_eval c u n = Ok u' /\ List.length u' = List.length u /\
    (forall k, (k <= n)%nat -> u'.[k] = tpoly c (n + 1) (phase (n + 1) k)) /\ (forall k, (n < k)%nat -> u'.[k] = u.[k]).
Proof.
  intros Lc Lu. unfold four_eval. set (N := (n + 1)%nat). cbv zeta.
  match goal with |- context [for_nat 0 N ?B u] => destruct (fill_loop 0 N B (fun k => tpoly c N (phase N k)) u 0) as (u1 & E & L & V) end.
  - lia.
  - intros j s Hj Ls. rewrite four_sum_ok by lia. cbn [rbind]. rewrite (rd_ok c 0%nat 0) by lia. cbn [rbind]. rewrite tpoly_split by lia. rewrite even_S2. destruct (Nat.eqb_spec (N mod 2) 0) as [M|M].
    + rewrite (rd_ok c (N - 1)%nat 0) by lia. cbn [rbind]. rewrite mode_ny; [|rewrite even_S2; now apply Nat.eqb_eq|lia]. rewrite Rmult_comm with (r1 := PI). rewrite cos_nPI. replace 2.0 with 2 by lra. reflexivity.
    + replace 2.0 with 2 by lra. rewrite Rminus_0_r. reflexivity.
  - exists u1. rewrite E. repeat split; auto; intros k Hk; rewrite V; destruct (Nat.leb_spec 0 k), (Nat.ltb_spec k N); cbn [andb]; auto; lia.
Qed.
