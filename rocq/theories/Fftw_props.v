From Verif Require Import Rutil Loops Sparse_model Rsum Trig Mat_model Mat_spec Mat_proofs Mat_inst Four_model Four_spec Four_proofs Four_props Cheb_model Cheb_spec Cheb_proofs Cheb_props
  Fd_model Dir_model Dir_spec Dir_props Fft_model Fft_cos2 Fft_props Fftw_model.
Local Open Scope R_scope.

(** ** C99: the choice of the transform does not change what is computed *)
Lemma nth_map_seq n f i : (i < n)%nat -> (map f (seq 0 n)).[i] = f i.
Proof. intros H. rewrite (nth_indep _ 0 (f 0%nat)) by (rewrite map_length, seq_length; lia). rewrite map_nth, seq_nth by auto. reflexivity. Qed.
Lemma skip_nth n : forall (l : list R) i, (skipn n l).[i] = l.[n + i].
Proof. induction n as [|n IH]; intros [|x l] i; cbn [skipn Nat.add nth]; auto. now destruct i. Qed.
Lemma first_tabl n f L g : (n <= L)%nat -> map f (seq 0 n) ++ skipn n (tabl L g) = tabl L (fun x => if (x <? n)%nat then f x else g x).
Proof.
  intros H. apply is_tabl.
  - rewrite app_length, map_length, seq_length, skipn_length, tabl_length. lia.
  - intros i Hi. destruct (Nat.ltb_spec i n).
    + rewrite app_nth1 by (rewrite map_length, seq_length; lia). now apply nth_map_seq.
    + rewrite app_nth2 by (rewrite map_length, seq_length; lia). rewrite map_length, seq_length. rewrite skip_nth. replace (n + (i - n))%nat with i by lia. now rewrite tabl_nth.
Qed.
Lemma fftw_run_tabl n x f L g : (n <= List.length x)%nat -> (n <= L)%nat -> fftw_run n x f (tabl L g) = Ok (tabl L (fun i => if (i <? n)%nat then f i else g i)).
Proof. intros H1 H2. unfold fftw_run. rewrite tabl_length. destruct (Nat.leb_spec n (List.length x)), (Nat.leb_spec n L); cbn [andb]; try lia. now rewrite first_tabl. Qed.
(** loops x[j] *= a *)
Lemma scale_loop L f lo hi a : (lo <= hi)%nat -> (hi <= L)%nat ->
  for_nat lo hi (fun j c => do x <- rd c j; wr c j (x * a)) (tabl L f) = Ok (tabl L (fun x => if ((lo <=? x) && (x <? hi))%nat then f x * a else f x)).
Proof.
  intros H1 H2. set (F := fun j => tabl L (fun x => if ((lo <=? x) && (x <? j))%nat then f x * a else f x)).
  assert (F0 : tabl L f = F lo). { apply tabl_ext. intros x Hx. destruct (Nat.leb_spec lo x), (Nat.ltb_spec x lo); cbn [andb]; auto; lia. }
  rewrite F0. apply (for_nat_eq F); auto. intros j Hj. unfold F. rewrite rd_tabl by lia. cbn [rbind]. rewrite wr_tabl by lia. f_equal. apply tabl_ext. intros x Hx. unfold fset. destruct (Nat.eqb_spec x j) as [->|N].
  - destruct (Nat.leb_spec lo j), (Nat.ltb_spec j (j + 1)), (Nat.ltb_spec j j); cbn [andb]; auto; lia.
  - destruct (Nat.leb_spec lo x), (Nat.ltb_spec x j), (Nat.ltb_spec x (j + 1)); cbn [andb]; auto; lia.
Qed.

Theorem C99_fftw_four_coeffs c u n : (n < List.length c)%nat -> (n < List.length u)%nat -> four_coeffs_FFTW3 c u n = four_coeffs c u n.
Proof.
  intros Lc Lu. destruct (four_coeffs_ok c u n Lc Lu) as (c' & E & L' & V & O). rewrite E. unfold four_coeffs_FFTW3. set (N := (n + 1)%nat) in *. set (L := List.length c) in *.
  destruct (Nat.leb_spec N (List.length u)); [|lia]. cbn [rbind]. assert (HN2 : (N <= 2 * (N / 2) + 1)%nat) by (destruct (parity N) as [[_ E2]|[_ E2]]; lia).
  set (co := fftw_r2c u N). assert (Lco : List.length co = (2 * (N / 2 + 1))%nat) by (unfold co, fftw_r2c; now rewrite map_length, seq_length).
  assert (Vc : forall k, (k <= N / 2)%nat -> co.[2 * k] = Sig N (fun j => u.[j] * cos (2 * PI * INR j * INR k / INR N)) /\ co.[2 * k + 1] = - Sig N (fun j => u.[j] * sin (2 * PI * INR j * INR k / INR N))).
  { intros k Hk. unfold co, fftw_r2c. rewrite !nth_map_seq by lia. rewrite even_2k, even_2k1, half_even, half_odd. auto. }
  rewrite (self_tabl c) at 1. fold L.
  set (F := fun j => (tabl L (fun x => if ((1 <=? x) && (x <? j - 1))%nat then (-1) ^ (x + 1) * co.[x + 1] else c.[x]), (-1) ^ j)).
  assert (F0 : (tabl L (fun i => c.[i]), 1) = F 2%nat). { unfold F. f_equal; [|simpl; ring]. apply tabl_ext. intros x Hx. destruct (Nat.leb_spec 1 x), (Nat.ltb_spec x (2 - 1)); cbn [andb]; auto; lia. }
  destruct (Nat.eq_dec N 1) as [N1|N1].
  - replace (N + 1)%nat with 2%nat by lia. unfold for_nat. cbn [Nat.sub seq forl rbind fst]. rewrite (rd_ok co 0 0) by lia. cbn [rbind]. rewrite wr_tabl by lia. f_equal. symmetry. apply is_tabl; [auto|].
    intros i Hi. unfold fset. destruct (Nat.eqb_spec i 0) as [->|]; [|apply O; lia]. rewrite V by lia. destruct (Vc 0%nat ltac:(lia)) as [Vz _]. change (2 * 0)%nat with 0%nat in Vz. rewrite Vz. apply Sig_ext. intros k Hk. rewrite mode_0. simpl INR. replace (2 * PI * INR k * 0 / INR N) with 0 by (unfold Rdiv; ring). rewrite cos_0. ring.
  - rewrite F0, (for_nat_eq F); [|lia|].
    2:{ intros j Hj. unfold F at 1. cbv beta iota. rewrite (rd_ok co j 0) by lia. cbn [rbind]. rewrite wr_tabl by lia. cbn [rbind]. unfold F. do 2 f_equal; [|rewrite pow_add; ring]. apply tabl_ext. intros x Hx. unfold fset. destruct (Nat.eqb_spec x (j - 1)) as [->|Nx].
        - destruct (Nat.leb_spec 1 (j - 1)), (Nat.ltb_spec (j - 1) (j + 1 - 1)); cbn [andb]; try lia. replace (j - 1 + 1)%nat with j by lia. reflexivity.
        - destruct (Nat.leb_spec 1 x), (Nat.ltb_spec x (j - 1)), (Nat.ltb_spec x (j + 1 - 1)); cbn [andb]; auto; lia. }
    unfold F. cbn [rbind fst]. rewrite (rd_ok co 0 0) by lia. cbn [rbind]. rewrite wr_tabl by lia. f_equal. symmetry. apply is_tabl; [auto|]. intros i Hi. unfold fset. destruct (Nat.eqb_spec i 0) as [->|Ni].
    + rewrite V by lia. destruct (Vc 0%nat ltac:(lia)) as [Vz _]. change (2 * 0)%nat with 0%nat in Vz. rewrite Vz. apply Sig_ext. intros k Hk. rewrite mode_0. simpl INR. replace (2 * PI * INR k * 0 / INR N) with 0 by (unfold Rdiv; ring). rewrite cos_0. ring.
    + destruct (Nat.leb_spec 1 i); [|lia]. destruct (Nat.ltb_spec i (N + 1 - 1)); cbn [andb]; [|apply O; lia]. rewrite V by lia. destruct (nat_cases i) as [[k Ek]|[k Ek]]; subst i.
      * destruct (Vc k ltac:(lia)) as [_ Vs]. rewrite Vs. rewrite pow_add, pow_m1_double. replace (1 * (-1) ^ 1 * - Sig N (fun j => u.[j] * sin (2 * PI * INR j * INR k / INR N))) with (Sig N (fun j => u.[j] * sin (2 * PI * INR j * INR k / INR N))) by (simpl; ring). apply Sig_ext. intros j Hj. rewrite mode_even by lia.
        unfold phase. replace (2 * PI * INR j * INR k / INR N) with (INR k * (2 * PI * INR j / INR N)) by (unfold Rdiv; ring). ring.
      * destruct (Vc (k + 1)%nat ltac:(lia)) as [Vs _]. replace (2 * k + 1 + 1)%nat with (2 * (k + 1))%nat by lia. rewrite Vs, pow_m1_double, Rmult_1_l. apply Sig_ext. intros j Hj. replace (2 * k + 1)%nat with (2 * (k + 1) - 1)%nat by lia. rewrite mode_odd by lia.
        unfold phase. replace (2 * PI * INR j * INR (k + 1) / INR N) with (INR (k + 1) * (2 * PI * INR j / INR N)) by (unfold Rdiv; ring). ring.
Qed.

Theorem C99_fftw_four_eval junk c u n : List.length junk = (2 * ((n + 1) / 2 + 1))%nat -> (n < List.length c)%nat -> (n < List.length u)%nat -> four_eval_FFTW3 junk c u n = four_eval c u n.
Proof.
  intros Lj Lc Lu. destruct (four_eval_ok c u n Lc Lu) as (u' & E & L' & V & O). rewrite E. unfold four_eval_FFTW3. set (N := (n + 1)%nat) in *. set (L := List.length u) in *. set (J := (2 * (N / 2 + 1))%nat) in *.
  assert (NZ : INR N <> 0) by (apply not_0_INR; lia). assert (HN2 : (N <= 2 * (N / 2) + 1)%nat) by (destruct (parity N) as [[_ E2]|[_ E2]]; lia).
  rewrite (self_tabl junk), Lj. rewrite wr_tabl by (unfold J; lia). cbn [rbind]. set (g := fset (fun i => junk.[i]) ((N / 2 + 1) * 2 - 1) 0).
  set (F := fun j => (tabl J (fun x => if ((2 <=? x) && (x <? j))%nat then (-1) ^ x * c.[x - 1] * (1 / INR N) else g x), (-1) ^ j)).
  assert (F0 : (tabl J g, 1) = F 2%nat). { unfold F. f_equal; [|simpl; ring]. apply tabl_ext. intros x Hx. destruct (Nat.leb_spec 2 x), (Nat.ltb_spec x 2); cbn [andb]; auto; lia. }
  rewrite F0, (for_nat_eq F); [|lia|].
  2:{ intros j Hj. unfold F at 1. cbv beta iota. rewrite (rd_ok c (j - 1) 0) by lia. cbn [rbind]. rewrite wr_tabl by (unfold J; lia). cbn [rbind]. unfold F. do 2 f_equal; [|rewrite pow_add; ring]. apply tabl_ext. intros x Hx. unfold fset. destruct (Nat.eqb_spec x j) as [->|Nx].
      - destruct (Nat.leb_spec 2 j), (Nat.ltb_spec j (j + 1)); cbn [andb]; try lia. reflexivity.
      - destruct (Nat.leb_spec 2 x), (Nat.ltb_spec x j), (Nat.ltb_spec x (j + 1)); cbn [andb]; auto; lia. }
  unfold F. cbn [rbind fst]. rewrite wr_tabl by (unfold J; lia). cbn [rbind]. rewrite (rd_ok c 0 0) by lia. cbn [rbind]. rewrite wr_tabl by (unfold J; lia). cbn [rbind].
  destruct (Nat.leb_spec N L); [|lia]. match goal with |- context [fftw_c2r ?C] => set (co := C) end.
  assert (C0 : co.[0] = c.[0] * (1 / INR N)). { unfold co. rewrite tabl_nth by (unfold J; lia). unfold fset. reflexivity. }
  assert (Cj : forall j, (2 <= j <= N)%nat -> co.[j] = (-1) ^ j * c.[j - 1] * (1 / INR N)). { intros j Hj. unfold co. rewrite tabl_nth by (unfold J; lia). unfold fset. destruct (Nat.eqb_spec j 0); [lia|]. destruct (Nat.eqb_spec j 1); [lia|].
    destruct (Nat.leb_spec 2 j), (Nat.ltb_spec j (N + 1)); cbn [andb]; auto; lia. }
  rewrite (self_tabl u). fold L. rewrite first_tabl by lia. f_equal. symmetry. apply is_tabl; [auto|]. intros k Hk. destruct (Nat.ltb_spec k N); [|apply O; lia]. rewrite V by lia. rewrite tpoly_split by lia. unfold fftw_c2r. rewrite C0.
  assert (Q : forall i, (2 * (i + 1) + 1 <= N)%nat -> 2 * (co.[2 * (i + 1)] * cos (2 * PI * INR k * INR (i + 1) / INR N) - co.[2 * (i + 1) + 1] * sin (2 * PI * INR k * INR (i + 1) / INR N))
     = 2 / INR N * (c.[2 * (i + 1) - 1] * mode (2 * (i + 1) - 1) (phase N k) + (if (2 * (i + 1) <? N)%nat then c.[2 * (i + 1)] * mode (2 * (i + 1)) (phase N k) else 0))).
  { intros i Hi. rewrite !Cj by lia. rewrite pow_add, pow_m1_double. destruct (Nat.ltb_spec (2 * (i + 1)) N); [|lia]. rewrite mode_odd, mode_even by lia. rewrite Nat.add_sub. unfold phase.
    replace (2 * PI * INR k * INR (i + 1) / INR N) with (INR (i + 1) * (2 * PI * INR k / INR N)) by (unfold Rdiv; ring). simpl ((-1) ^ 1). field. auto. }
  destruct (parity N) as [[Ev EN]|[Ev EN]]; rewrite Ev; set (M := (N / 2)%nat) in *.
  - assert (EM : ((N - 1) / 2 = M - 1)%nat). { replace (N - 1)%nat with (2 * (M - 1) + 1)%nat by lia. apply half_odd. } rewrite EM.
    rewrite (Sig_ext (M - 1) _ _ (fun i Hi => Q i ltac:(lia))). rewrite Sig_scal. replace M with (S (M - 1)) at 1 by lia. rewrite Sig_S. replace (2 * (M - 1 + 1))%nat with N by lia. destruct (Nat.ltb_spec N N); [lia|].
    rewrite mode_ny by (auto; lia). rewrite Cj by lia. replace (cos (PI * INR k)) with ((-1) ^ k) by (rewrite Rmult_comm; symmetry; apply cos_nPI). replace ((-1) ^ N) with 1 by (rewrite EN; symmetry; apply pow_m1_double). field. auto.
  - assert (EM : ((N - 1) / 2 = M)%nat). { replace (N - 1)%nat with (2 * M)%nat by lia. apply half_even. } rewrite EM. rewrite (Sig_ext M _ _ (fun i Hi => Q i ltac:(lia))). rewrite Sig_scal. field. auto.
Qed.
Theorem C99_fftw_zeros_coeffs c u n : (n < List.length c)%nat -> (n < List.length u)%nat -> cheb_coeffs_fromZeros_FFTW3 c u n = cheb_coeffs_fromZeros c u n.
Proof.
  intros Lc Lu. destruct (fromZeros_ok c u n) as (c' & E & L' & V & O); try lia. rewrite E. unfold cheb_coeffs_fromZeros_FFTW3. set (N := (n + 1)%nat) in *. set (L := List.length c) in *.
  rewrite (self_tabl c) at 1. fold L. rewrite fftw_run_tabl by lia. cbn [rbind]. rewrite scale_loop by lia. f_equal. symmetry. apply is_tabl; [auto|]. intros i Hi. cbn [Nat.leb andb]. destruct (Nat.ltb_spec i N); [|apply O; lia]. rewrite V by lia.
  unfold fftw_redft10. rewrite (Sig_ext N (fun k => u.[k] * cos (PI * (INR k + / 2) * INR i / INR N)) (fun k => cos (INR i * (PI / INR N) * (INR k + / 2)) * u.[k])); [unfold Rdiv; ring|]. intros k Hk. replace (PI * (INR k + / 2) * INR i / INR N) with (INR i * (PI / INR N) * (INR k + / 2)) by (unfold Rdiv; ring). ring.
Qed.
Theorem C99_fftw_zeros_eval c u n : (n < List.length c)%nat -> (n < List.length u)%nat -> cheb_eval_onZeros_FFTW3 c u n = cheb_eval_onZeros c u n.
Proof.
  intros Lc Lu. destruct (onZeros_ok c u n) as (u' & E & L' & V & O); try lia. rewrite E. unfold cheb_eval_onZeros_FFTW3. set (N := (n + 1)%nat) in *. set (L := List.length u) in *.
  rewrite (self_tabl u) at 1. fold L. rewrite fftw_run_tabl by lia. cbn [rbind]. rewrite scale_loop by lia. f_equal. symmetry. apply is_tabl; [auto|]. intros i Hi. cbn [Nat.leb andb]. destruct (Nat.ltb_spec i N); [|apply O; lia]. rewrite V by lia.
  unfold fftw_redft01. rewrite (Sig_first N) by lia. rewrite (Sig_ext (N - 1) (fun j => whalf (j + 1) * (c.[j + 1] * cos (INR (j + 1) * (PI / INR N) * (INR i + / 2)))) (fun j => c.[j + 1] * cos (PI * INR (j + 1) * (INR i + / 2) / INR N))).
  - unfold whalf at 1. cbn [Nat.eqb]. simpl (INR 0). rewrite !Rmult_0_l, cos_0. lra.
  - intros k Hk. unfold whalf. destruct (Nat.eqb_spec (k + 1) 0); [lia|]. replace (PI * INR (k + 1) * (INR i + / 2) / INR N) with (INR (k + 1) * (PI / INR N) * (INR i + / 2)) by (unfold Rdiv; ring). ring.
Qed.
Lemma redft00_dct1 x N k : (1 <= N)%nat -> fftw_redft00 x N k = 2 * dct1 N (fun j => x.[j]) k.
Proof.
  intros HN. rewrite dct1_ends by auto. unfold fftw_redft00. rewrite (Sig_ext (N - 1) (fun j => x.[j + 1] * cos (PI * INR (j + 1) * INR k / INR N)) (fun j => cos (INR k * (PI / INR N) * INR (j + 1)) * x.[j + 1])); [field|].
  intros j Hj. replace (PI * INR (j + 1) * INR k / INR N) with (INR k * (PI / INR N) * INR (j + 1)) by (unfold Rdiv; ring). ring.
Qed.
Theorem C99_fftw_extrema_coeffs c u N : (1 <= N)%nat -> (N < List.length c)%nat -> (N < List.length u)%nat -> cheb_coeffs_fromExtrema_FFTW3 c u N = cheb_coeffs_fromExtrema c u N.
Proof.
  intros HN Lc Lu. destruct (fromExtrema_ok c u N) as (c' & E & L' & V & O); try lia. rewrite E. unfold cheb_coeffs_fromExtrema_FFTW3. set (L := List.length c) in *.
  rewrite (self_tabl c) at 1. fold L. rewrite fftw_run_tabl by lia. cbn [rbind]. rewrite rd_tabl by lia. cbn [rbind]. rewrite wr_tabl by lia. cbn [rbind]. rewrite scale_loop by lia. f_equal. symmetry. apply is_tabl; [auto|].
  intros i Hi. cbn [Nat.leb andb]. unfold fset. destruct (Nat.ltb_spec i (N + 1)).
  - rewrite V by lia. rewrite !redft00_dct1 by auto. unfold dct1. destruct (Nat.ltb_spec N (N + 1)); [|lia]. destruct (Nat.eqb_spec i N) as [->|]; unfold Rdiv; lra.
  - rewrite O by lia. destruct (Nat.eqb_spec i N); [lia|]. reflexivity.
Qed.
Theorem C99_fftw_extrema_eval c u N : (1 <= N)%nat -> (N < List.length c)%nat -> (N < List.length u)%nat ->
  exists u', cheb_eval_onExtrema_FFTW3 c u N = Ok (c, u') /\ cheb_eval_onExtrema c u N = Ok u'.
Proof.
  intros HN Lc Lu. destruct (onExtrema_ok c u N) as (u' & E & L' & V & O); try lia. exists u'. split; auto. unfold cheb_eval_onExtrema_FFTW3. set (L := List.length u) in *.
  rewrite (rd_ok c N 0) by lia. cbn [rbind]. rewrite (self_tabl c), wr_tabl by lia. cbn [rbind]. rewrite (self_tabl u) at 1. fold L. rewrite fftw_run_tabl by (rewrite ?tabl_length; lia). cbn [rbind]. rewrite wr_tabl by lia. cbn [rbind]. rewrite scale_loop by lia. cbn [rbind]. do 2 f_equal.
  - apply tabl_ext. intros i Hi. unfold fset. destruct (Nat.eqb_spec i N) as [->|]; [|reflexivity]. now rewrite tabl_nth by lia.
  - symmetry. apply is_tabl; [auto|]. intros i Hi. cbn [Nat.leb andb]. destruct (Nat.ltb_spec i (N + 1)); [|apply O; lia]. rewrite V by lia. rewrite redft00_dct1 by auto. unfold dct1. rewrite <- Sig_scal, <- Sig_scal_r. apply Sig_ext. intros k Hk. rewrite tabl_nth by lia.
    unfold fset, wend, whalf. replace (INR i * (PI / INR N) * INR k) with (INR k * (PI / INR N) * INR i) by ring. destruct (Nat.eqb_spec k N) as [->|].
    + destruct (Nat.eqb_spec N 0); [lia|]. cbn [orb]. rewrite tabl_nth by lia. lra.
    + destruct (Nat.eqb_spec k 0); cbn [orb]; lra.
Qed.

(** the functions of a transform type agree with those of type 0 on lines of n numbers *)
Definition agree (n : nat) (f g : coefF) : Prop := forall x y, List.length x = n -> List.length y = n -> f x y (n - 1)%nat = g x y (n - 1)%nat.
(** two Chebyshev extrema are too few for the numrec transform, cf. C98_two_extrema_refuted *)
Definition enough (bs : basis) (n : nat) : Prop := (3 <= n \/ n = 2 /\ bs <> ChebExtrema)%nat.
Lemma two_times m : is_power_of_two m = true -> (2 <= m)%nat -> exists p, m = (2 * 2 ^ p)%nat.
Proof. intros H1 H2. apply C98_power_of_two in H1. destruct H1 as [[|p] ->]; [simpl in H2; lia|]. exists p. reflexivity. Qed.
Theorem C99_functions_agree numrec fftw3 thr bs a b n junk : enough bs n -> List.length junk = (2 * (n / 2 + 1))%nat ->
  let f := funs_for true junk (set_TransformType numrec fftw3 thr bs n) bs a b in let f0 := funs_from_pars bs a b in
  agree n (f_coeffs f) (f_coeffs f0) /\ agree n (f_eval f) (f_eval f0) /\ agree n (callp (f_int f)) (callp (f_int f0)) /\
  f_deriv f = f_deriv f0 /\ f_2nd f = f_2nd f0 /\ f_filter f = f_filter f0 /\ f_basis f = f_basis f0.
Proof.
  intros Hn Lj f f0. assert (N2 : (2 <= n)%nat) by (destruct Hn; lia). unfold f, set_TransformType.
  destruct (numrec && (thr <=? Z.of_nat n)%Z && (0 <=? thr)%Z && match bs with ChebExtrema => is_power_of_two (n - 1) | ChebZeros | Fourier => is_power_of_two n | _ => false end) eqn:E1.
  - apply andb_prop in E1. destruct E1 as [_ E1]. destruct bs; try discriminate E1; cbn [funs_for f_coeffs f_eval f_int callp f_deriv f_2nd f_filter f_basis].
    + destruct (two_times (n - 1)) as [p Hp]; auto. { destruct Hn as [?|[_ Hx]]; [lia|congruence]. }
      split; [|split; [|split; [|auto]]]; intros x y Lx Ly; [apply (C98_cheb_extrema_coeffs x y (n - 1) p)|apply (C98_cheb_extrema_eval x y (n - 1) p)|reflexivity]; auto; lia.
    + destruct (two_times n) as [p Hp]; auto. split; [|split; [|split; [|auto]]]; intros x y Lx Ly; [apply (C98_cheb_zeros_coeffs x y (n - 1) p)|apply (C98_cheb_zeros_eval x y (n - 1) p)|reflexivity]; auto; lia.
    + destruct (two_times n) as [p Hp]; auto. split; [|split; [|split; [|auto]]]; intros x y Lx Ly; [apply (C98_four_coeffs x y (n - 1) p)|apply (C98_four_eval x y (n - 1) p)|apply (C98_four_int a b x y (n - 1) p)]; auto; lia.
  - destruct (fftw3 && (thr <=? Z.of_nat n)%Z && (0 <=? thr)%Z && match bs with ChebExtrema | ChebZeros | Fourier => true | _ => false end).
    2:{ cbn [funs_for]. fold f0. repeat split; intros; auto. }
    destruct bs; cbn [funs_for f_coeffs f_eval f_int callp f_deriv f_2nd f_filter f_basis]; try (fold f0; repeat split; intros; auto; fail).
    + split; [|split; [|split; [|auto]]]; intros x y Lx Ly; [apply C99_fftw_extrema_coeffs; lia| |reflexivity]. destruct (C99_fftw_extrema_eval x y (n - 1)) as (u' & E2 & E3); try lia. rewrite E2. cbn [rbind snd]. symmetry. exact E3.
    + split; [|split; [|split; [|auto]]]; intros x y Lx Ly; [apply C99_fftw_zeros_coeffs; lia|apply C99_fftw_zeros_eval; lia|reflexivity].
    + split; [|split; [|split; [|auto]]]; intros x y Lx Ly; [apply C99_fftw_four_coeffs; lia|apply C99_fftw_four_eval; try lia|reflexivity]. rewrite Lj. do 3 f_equal. lia.
Qed.

(** the matrices of the direction *)
Lemma agree_computes n f g K : agree n f g -> computes n g K -> computes n f K.
Proof. intros H C x y Lx Ly. rewrite H by auto. now apply C. Qed.
Lemma agree_swap n f g : agree n f g -> agree n (swap f) (swap g).
Proof. intros H x y Lx Ly. unfold swap. now apply H. Qed.
Lemma ismat_unique n M M' K : ismat n M K -> ismat n M' K -> M = M'.
Proof.
  intros [L1 V1] [L2 V2]. apply nth_ext with 0 0; [lia|]. intros i Hi. rewrite L1 in Hi. assert (n <> 0)%nat by (intros ->; simpl in Hi; lia).
  rewrite (Nat.div_mod i n) by auto. assert (i / n < n)%nat by (apply Nat.div_lt_upper_bound; lia). assert (i mod n < n)%nat by (apply Nat.mod_upper_bound; auto). now rewrite V1, V2 by auto.
Qed.
Lemma setup_agree n filt f g : agree n (f_coeffs f) (f_coeffs g) -> agree n (f_eval f) (f_eval g) -> agree n (callp (f_int f)) (callp (f_int g)) ->
  f_deriv f = f_deriv g -> f_filter f = f_filter g -> linear_fn n (swap (f_coeffs g)) -> linear_fn n (f_deriv g) -> linear_fn n (f_eval g) -> linear_fn n (callp (f_int g)) -> filters n (f_filter g) ->
  (2 <= n)%nat -> (0 <= filt <= Z.of_nat n)%Z -> setup_dir_for f n filt = setup_dir_for g n filt.
Proof.
  intros AC AE AI ED EF [A HA] [B HB] [E HE] [J HJ] HF Hn Hf. assert (Lz := repeat_length 0 (n * n)).
  assert (HA' := agree_computes n _ _ A (agree_swap n _ _ AC) HA). assert (HE' := agree_computes n _ _ E AE HE). assert (HJ' := agree_computes n _ _ J AI HJ).
  unfold setup_dir_for, through_box. cbn [f_coeffs f_deriv f_2nd f_int f_eval f_filter f_basis]. cbv zeta. rewrite ED, EF.
  destruct (initdiffmatrix_ok (repeat 0 (n * n)) (repeat 0 (n * n)) n (f_coeffs f) (f_deriv g) (f_eval f) A B E) as (D & DD & E1 & M1 & M2); auto.
  destruct (initdiffmatrix_ok (repeat 0 (n * n)) (repeat 0 (n * n)) n (f_coeffs g) (f_deriv g) (f_eval g) A B E) as (D' & DD' & E1' & M1' & M2'); auto.
  rewrite E1, E1'. rewrite (ismat_unique n D D' _ M1 M1'), (ismat_unique n DD DD' _ M2 M2'). cbn [rbind].
  assert (XF : initfiltermatrix (repeat 0 (n * n)) (Z.of_nat n + 1 - filt) n (f_coeffs f) (f_filter g) (f_eval f) = initfiltermatrix (repeat 0 (n * n)) (Z.of_nat n + 1 - filt) n (f_coeffs g) (f_filter g) (f_eval g)).
  { destruct (Z.eq_dec filt 0) as [->|NZ].
    - unfold initfiltermatrix. cbv zeta. destruct (Z.leb_spec (Z.of_nat n + 1 - 0) (Z.of_nat n)); [lia|]. reflexivity.
    - destruct (initfiltermatrix_ok (repeat 0 (n * n)) (n + 1 - Z.to_nat filt) n (f_coeffs f) (f_filter g) (f_eval f) A E) as (F & E2 & M3); auto; [lia|].
      destruct (initfiltermatrix_ok (repeat 0 (n * n)) (n + 1 - Z.to_nat filt) n (f_coeffs g) (f_filter g) (f_eval g) A E) as (F' & E2' & M3'); auto; [lia|].
      replace (Z.of_nat (n + 1 - Z.to_nat filt)) with (Z.of_nat n + 1 - filt)%Z in E2, E2' by lia. rewrite E2, E2'. f_equal. eapply ismat_unique; eauto. }
  rewrite XF. destruct (initfiltermatrix _ _ n (f_coeffs g) _ _) as [F| |]; cbn [rbind]; auto.
  destruct (initMatrix_ForCoeffs_ok (repeat 0 (n * n)) n (f_coeffs f) A HA' Lz) as (Mc & E3 & M3). destruct (initMatrix_ForCoeffs_ok (repeat 0 (n * n)) n (f_coeffs g) A HA Lz) as (Mc' & E3' & M3'). rewrite E3, E3', (ismat_unique n _ _ _ M3 M3'). cbn [rbind].
  destruct (initMatrix_ToEvaluate_ok (repeat 0 (n * n)) n (f_eval f) E HE' Lz) as (Me & E4 & M4). destruct (initMatrix_ToEvaluate_ok (repeat 0 (n * n)) n (f_eval g) E HE Lz) as (Me' & E4' & M4'). rewrite E4, E4', (ismat_unique n _ _ _ M4 M4'). cbn [rbind].
  destruct (initdiffmatrix2_ok (repeat 0 (n * n)) n (f_coeffs f) (callp (f_int f)) (f_eval f) A J E) as (In & E5 & M5); auto. destruct (initdiffmatrix2_ok (repeat 0 (n * n)) n (f_coeffs g) (callp (f_int g)) (f_eval g) A J E) as (In' & E5' & M5'); auto.
  unfold initIntegrationMatrix. rewrite E5, E5', (ismat_unique n _ _ _ M5 M5'). reflexivity.
Qed.
Theorem C99_same_matrices numrec fftw3 thr bs a b n filt junk : spectral bs = true -> enough bs n -> (0 <= filt <= Z.of_nat n)%Z -> List.length junk = (2 * (n / 2 + 1))%nat ->
  setup_dir_for (funs_for true junk (set_TransformType numrec fftw3 thr bs n) bs a b) n filt = setup_dir bs a b n filt.
Proof.
  intros Hs Hn Hf Lj. assert (N2 : (2 <= n)%nat) by (destruct Hn; lia). destruct (C99_functions_agree numrec fftw3 thr bs a b n junk Hn Lj) as (A1 & A2 & A3 & A4 & _ & A5 & _).
  destruct (spectral_linear bs a b n Hs N2) as (B1 & B2 & B3 & B4 & B5 & _). change (setup_dir bs a b n filt) with (setup_dir_for (funs_from_pars bs a b) n filt). apply setup_agree; auto.
Qed.
(** analysis and synthesis of a line give the same for every value of the parameter *)
Theorem C99_same_lines numrec fftw3 thr bs a b n filt junk m u o : spectral bs = true -> enough bs n -> (0 <= filt <= Z.of_nat n)%Z -> List.length junk = (2 * (n / 2 + 1))%nat ->
  setup_dir bs a b n filt = Ok m -> List.length u = n -> List.length o = n ->
  let tt := set_TransformType numrec fftw3 thr bs n in let f := funs_for true junk tt bs a b in
  analysis_line tt f m u o n = matrix_times_vector (m_coeffs m) u o n /\ synthesis_line tt f m u o n = matrix_times_vector (m_eval m) u o n.
Proof.
  intros Hs Hn Hf Lj Em Lu Lo tt f. assert (N2 : (2 <= n)%nat) by (destruct Hn; lia). destruct (C99_functions_agree numrec fftw3 thr bs a b n junk Hn Lj) as (A1 & A2 & _). fold tt in A1, A2. fold f in A1, A2.
  destruct (setup_pipeline bs a b n filt Hs N2 Hf) as (m' & Em' & P). assert (m' = m) by congruence. subst m'. destruct (P u o Lu Lo) as (c & d & Du & e & DDu & c' & v & I & w & Lc & F1 & F2 & F3 & _).
  unfold analysis_line, synthesis_line. assert (G1 : f_coeffs f o u (n - 1)%nat = matrix_times_vector (m_coeffs m) u o n) by (rewrite A1, F1, F2 by auto; reflexivity). assert (G2 : f_eval f u o (n - 1)%nat = matrix_times_vector (m_eval m) u o n) by (rewrite A2, F3 by auto; reflexivity).
  destruct tt; auto.
Qed.
(** a program without FFTW3 stops when it is asked for FFTW3 transforms *)
Theorem C99_without_fftw3 thr bs a b n junk x y : spectral bs = true -> (0 <= thr <= Z.of_nat n)%Z ->
  let f := funs_for false junk (set_TransformType false true thr bs n) bs a b in f_coeffs f x y (n - 1)%nat = Err /\ f_eval f x y (n - 1)%nat = Err.
Proof.
  intros Hs [H0 H1] f. unfold f, set_TransformType. cbn [andb]. destruct (Z.leb_spec thr (Z.of_nat n)); [|lia]. destruct (Z.leb_spec 0 thr); [|lia]. destruct bs; try discriminate Hs; split; reflexivity.
Qed.
(** which transform is used *)
Theorem C99_choice numrec fftw3 thr bs n : spectral bs = true -> (0 <= thr <= Z.of_nat n)%Z ->
  (set_TransformType numrec fftw3 thr bs n = NUMREC_FFT <-> numrec = true /\ exists p, (match bs with ChebExtrema => n - 1 | _ => n end)%nat = (2 ^ p)%nat) /\
  (set_TransformType numrec fftw3 thr bs n = MATRIX_MULTIPLICATION <-> fftw3 = false /\ (numrec = false \/ forall p, (match bs with ChebExtrema => n - 1 | _ => n end)%nat <> (2 ^ p)%nat)).
Proof.
  intros Hs [H0 H1]. unfold set_TransformType. destruct (Z.leb_spec thr (Z.of_nat n)); [|lia]. destruct (Z.leb_spec 0 thr); [|lia]. rewrite !andb_true_r. set (m := match bs with ChebExtrema => (n - 1)%nat | _ => n end).
  replace (match bs with ChebExtrema => is_power_of_two (n - 1) | ChebZeros | Fourier => is_power_of_two n | _ => false end) with (is_power_of_two m) by (destruct bs; try discriminate Hs; reflexivity).
  replace (match bs with ChebExtrema | ChebZeros | Fourier => true | _ => false end) with true by (destruct bs; try discriminate Hs; reflexivity). rewrite andb_true_r.
  destruct numrec, (is_power_of_two m) eqn:P; cbn [andb].
  - apply C98_power_of_two in P. split; [tauto|]. split; [discriminate|]. intros [_ [?|NP]]; [discriminate|]. destruct P as [p Ep]. destruct (NP p Ep).
  - assert (NP : forall p, m <> (2 ^ p)%nat). { intros p Ep. assert (is_power_of_two m = true) by (apply C98_power_of_two; eauto). congruence. }
    destruct fftw3; (split; [split; [discriminate|intros [_ [p Ep]]; destruct (NP p Ep)]|]); split; try discriminate; try tauto. intros [? _]; discriminate.
  - destruct fftw3; (split; [split; [discriminate|intros [? _]; discriminate]|]); split; try discriminate; try tauto. intros [? _]; discriminate.
  - destruct fftw3; (split; [split; [discriminate|intros [? _]; discriminate]|]); split; try discriminate; try tauto. intros [? _]; discriminate.
Qed.
Example C99_nontrivial : exists m, setup_dir_for (funs_for true (repeat 0 10) (set_TransformType true true 4 Fourier 8) Fourier 0 1) 8 0 = Ok m /\
  set_TransformType true true 4 Fourier 8 = NUMREC_FFT /\ set_TransformType true true 4 Fourier 9 = FFTW3_FFT /\ set_TransformType true true 4 ChebExtrema 3 = MATRIX_MULTIPLICATION.
Proof.
  destruct (setup_pipeline Fourier 0 1 8 0) as (m & E & _); try reflexivity; try lia. exists m. split; [|repeat split]. rewrite C99_same_matrices; [exact E|reflexivity|left; lia|lia|reflexivity].
Qed.
Print Assumptions C99_fftw_four_coeffs.
Print Assumptions C99_fftw_four_eval.
Print Assumptions C99_fftw_zeros_coeffs.
Print Assumptions C99_fftw_zeros_eval.
Print Assumptions C99_fftw_extrema_coeffs.
Print Assumptions C99_fftw_extrema_eval.
Print Assumptions C99_functions_agree.
Print Assumptions C99_same_matrices.
Print Assumptions C99_same_lines.
Print Assumptions C99_without_fftw3.
Print Assumptions C99_choice.
