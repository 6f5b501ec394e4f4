(** C56: coordinates and matrices of one direction of a box. *)
From Verif Require Import Arrays Mat_model Mat_spec Mat_proofs Mat_inst Mat_props Cheb_model Cheb_spec Cheb_proofs Cheb_props Four_model Four_spec Four_proofs Four_props Fd_model Fd_spec Fd_props Dir_model Dir_spec.
Local Open Scope R_scope.

Lemma four_filter_filters n : (1 <= n)%nat -> filters n four_filter.
Proof. exact (cheb_filter_filters n). Qed.
Lemma spectral_linear bs a b n : spectral bs = true -> (2 <= n)%nat -> let f := funs_from_pars bs a b in
  linear_fn n (swap (f_coeffs f)) /\ linear_fn n (f_deriv f) /\ linear_fn n (f_eval f) /\ linear_fn n (callp (f_int f)) /\ filters n (f_filter f) /\ f_2nd f = None.
Proof.
  intros H Hn. destruct (C41_linear n a b Hn) as (A1 & A2 & A3 & A4 & A5 & A6 & A7 & A8 & A9 & A10 & _).
  assert (F := cheb_filter_filters n ltac:(lia)). destruct bs; try discriminate H; cbn; auto 10.
Qed.
(** the matrices of a direction as matrices of linear maps *)
Lemma setup_kernels bs a b n filt : spectral bs = true -> (2 <= n)%nat -> (0 <= filt <= Z.of_nat n)%Z -> let f := funs_from_pars bs a b in
  exists m A B E J KF, setup_dir bs a b n filt = Ok m /\
    computes n (swap (f_coeffs f)) A /\ computes n (f_deriv f) B /\ computes n (f_eval f) E /\ computes n (callp (f_int f)) J /\
    ismat n (m_D m) (compose n E (compose n B A)) /\ ismat n (m_DD m) (compose n E (compose n B (compose n B A))) /\
    ismat n (m_coeffs m) A /\ ismat n (m_eval m) E /\ ismat n (m_Int m) (compose n E (compose n J A)) /\ ismat n (m_F m) KF /\
    ((filt <> 0)%Z -> KF = compose n E (compose n (keep (n - Z.to_nat filt)) A)) /\ (filt = 0%Z -> forall u, List.length u = n -> apply n KF u = u).
Proof.
  intros Hs Hn Hf f. destruct (spectral_linear bs a b n Hs Hn) as ([A HA] & [B HB] & [E HE] & [J HJ] & HF & H2). fold f in HA, HB, HE, HJ, HF, H2.
  assert (Lz := repeat_length 0 (n * n)). assert (Hn0 : (1 <= n)%nat) by lia.
  unfold setup_dir. fold f. unfold through_box. cbn [f_coeffs f_deriv f_2nd f_int f_eval f_filter f_basis]. cbv zeta.
  destruct (initdiffmatrix_ok (repeat 0 (n * n)) (repeat 0 (n * n)) n (f_coeffs f) (f_deriv f) (f_eval f) A B E) as (D & DD & E1 & M1 & M2); auto. rewrite E1. cbn [rbind].
  assert (XF : exists F K, initfiltermatrix (repeat 0 (n * n)) (Z.of_nat n + 1 - filt) n (f_coeffs f) (f_filter f) (f_eval f) = Ok F /\ ismat n F K /\
    ((filt <> 0)%Z -> K = compose n E (compose n (keep (n - Z.to_nat filt)) A)) /\ (filt = 0%Z -> forall u, List.length u = n -> apply n K u = u)).
  { destruct (Z.eq_dec filt 0) as [->|NZ].
    - destruct (C41_nofilter n (Z.of_nat n + 1 - 0) (f_coeffs f) (f_filter f) (f_eval f) (repeat 0 n) (repeat 0 n)) as (F & EF & _); try apply repeat_length; [lia|].
      exists F, (fun i j => F.[n * i + j]). split; auto. split.
      + split; auto. revert EF. unfold initfiltermatrix. cbv zeta. destruct (Z.leb_spec (Z.of_nat n + 1 - 0) (Z.of_nat n)); [lia|]. intros EF.
        destruct (for_nat_inv (fun _ G => List.length G = (n * n)%nat) (fun i F => wr F (n * i + i) 1) 0 n (repeat 0 (n * n))) as (G & EG & LG); auto; try lia.
        * intros i s Hi L. rewrite wr_ok by (rewrite L; apply idx_lt; lia). eexists. split; [reflexivity|]. now rewrite upd_length.
        * congruence.
      + split; [congruence|]. intros _ u Lu. destruct (C41_nofilter n (Z.of_nat n + 1 - 0) (f_coeffs f) (f_filter f) (f_eval f) u u) as (F' & EF' & MF); auto; [lia|].
        assert (F' = F) by congruence. subst F'. assert (LF : List.length F = (n * n)%nat).
        { revert EF. unfold initfiltermatrix. cbv zeta. destruct (Z.leb_spec (Z.of_nat n + 1 - 0) (Z.of_nat n)); [lia|]. intros EF.
          destruct (for_nat_inv (fun _ G => List.length G = (n * n)%nat) (fun i F => wr F (n * i + i) 1) 0 n (repeat 0 (n * n))) as (G & EG & LG); auto; try lia.
          intros i s Hi L. rewrite wr_ok by (rewrite L; apply idx_lt; lia). eexists. split; [reflexivity|]. now rewrite upd_length. congruence. }
        rewrite (mtv_ok F u u n (fun i j => F.[n * i + j])) in MF by (auto; split; auto). congruence.
    - destruct (initfiltermatrix_ok (repeat 0 (n * n)) (n + 1 - Z.to_nat filt) n (f_coeffs f) (f_filter f) (f_eval f) A E) as (F & EF & MF); auto; [lia|].
      replace (Z.of_nat (n + 1 - Z.to_nat filt)) with (Z.of_nat n + 1 - filt)%Z in EF by lia. exists F, (compose n E (compose n (keep (n + 1 - Z.to_nat filt - 1)) A)). split; auto. split; auto. split.
      + intros _. replace (n + 1 - Z.to_nat filt - 1)%nat with (n - Z.to_nat filt)%nat by lia. reflexivity. + congruence. }
  destruct XF as (F & KF & EF & MF & F1 & F2). rewrite EF. cbn [rbind].
  destruct (initMatrix_ForCoeffs_ok (repeat 0 (n * n)) n (f_coeffs f) A HA Lz) as (Mc & E3 & M3). rewrite E3. cbn [rbind].
  destruct (initMatrix_ToEvaluate_ok (repeat 0 (n * n)) n (f_eval f) E HE Lz) as (Me & E4 & M4). rewrite E4. cbn [rbind].
  destruct (initdiffmatrix2_ok (repeat 0 (n * n)) n (f_coeffs f) (callp (f_int f)) (f_eval f) A J E) as (In & E5 & M5); auto. unfold initIntegrationMatrix. rewrite E5. cbn [rbind].
  exists {| m_D := D; m_DD := DD; m_F := F; m_coeffs := Mc; m_eval := Me; m_Int := In |}, A, B, E, J, KF. cbn [m_D m_DD m_F m_coeffs m_eval m_Int]. split; [reflexivity|]. repeat (split; [assumption|]). assumption.
Qed.
(** what the matrices compute, in terms of the one-dimensional functions *)
Lemma setup_pipeline bs a b n filt : spectral bs = true -> (2 <= n)%nat -> (0 <= filt <= Z.of_nat n)%Z -> let f := funs_from_pars bs a b in
  exists m, setup_dir bs a b n filt = Ok m /\
  forall u o, List.length u = n -> List.length o = n ->
  exists c d Du e DDu c' v I w,
    List.length c = n /\ f_coeffs f o u (n - 1)%nat = Ok c /\ matrix_times_vector (m_coeffs m) u o n = Ok c /\
    (forall x, List.length x = n -> matrix_times_vector (m_eval m) x o n = f_eval f x o (n - 1)%nat) /\
    f_deriv f c o (n - 1)%nat = Ok d /\ List.length d = n /\ f_eval f d o (n - 1)%nat = Ok Du /\ matrix_times_vector (m_D m) u o n = Ok Du /\
    f_deriv f d o (n - 1)%nat = Ok e /\ f_eval f e o (n - 1)%nat = Ok DDu /\ matrix_times_vector (m_DD m) u o n = Ok DDu /\
    List.length c' = n /\ (forall i, (i < n)%nat -> c'.[i] = if (Z.of_nat i <? Z.of_nat n - filt)%Z then c.[i] else 0) /\
    ((filt <> 0)%Z -> f_eval f c' o (n - 1)%nat = Ok v) /\ (filt = 0%Z -> v = u) /\ matrix_times_vector (m_F m) u o n = Ok v /\
    callp (f_int f) c o (n - 1)%nat = Ok I /\ List.length I = n /\ f_eval f I o (n - 1)%nat = Ok w /\ matrix_times_vector (m_Int m) u o n = Ok w.
Proof.
  intros Hs Hn Hf f. destruct (setup_kernels bs a b n filt Hs Hn Hf) as (m & A & B & E & J & KF & Em & HA & HB & HE & HJ & M1 & M2 & M3 & M4 & M5 & MF & F1 & F2). fold f in HA, HB, HE, HJ.
  exists m. split; auto. destruct m as [D DD F Mc Me In].
  cbn [m_D m_DD m_F m_coeffs m_eval m_Int]. intros u o Lu Lo.
  set (c := apply n A u). assert (Lc : List.length c = n) by apply apply_length.
  exists c, (apply n B c), (apply n E (apply n B c)), (apply n B (apply n B c)), (apply n E (apply n B (apply n B c))), (apply n (keep (n - Z.to_nat filt)) c), (apply n KF u), (apply n J c), (apply n E (apply n J c)).
  rewrite (mtv_ok Mc u o n _ M3), (mtv_ok D u o n _ M1), (mtv_ok DD u o n _ M2), (mtv_ok F u o n _ MF), (mtv_ok In u o n _ M5) by auto.
  rewrite !HB, !HJ, !HE by (auto; apply apply_length).
  split; auto. split; [apply (HA u o); auto|]. split; auto. split; [intros x Lx; now rewrite (mtv_ok Me x o n _ M4), HE by auto|].
  unfold c. rewrite (apply_apply n B A), (apply_apply n E (compose n B A)), (apply_apply n B (compose n B A)), (apply_apply n E (compose n B (compose n B A))), (apply_apply n J A), (apply_apply n E (compose n J A)).
  repeat (split; [solve [auto | apply apply_length]|]). split.
  { intros i Hi. rewrite apply_nth by auto. rewrite (Sig_single n i); auto.
    + unfold keep. rewrite Nat.eqb_refl. cbn [andb]. destruct (Z.ltb_spec (Z.of_nat i) (Z.of_nat n - filt)), (Nat.ltb_spec i (n - Z.to_nat filt)); try lia; ring.
    + intros j _ N. unfold keep. destruct (Nat.eqb_spec i j); [congruence|]. cbn [andb]. ring. }
  split. { intros NZ. rewrite (F1 NZ). now rewrite (apply_apply n (keep (n - Z.to_nat filt)) A), (apply_apply n E). }
  split. { intros Z. apply F2; auto. } repeat split; auto; apply apply_length.
Qed.

Lemma coord_extremum a b n m : (2 <= n)%nat -> (m < n)%nat -> coord ChebExtrema a b n m = Xof a b (extremum (n - 1) m).
Proof.
  intros Hn Hm. unfold coord, Xof, extremum. destruct (Nat.eqb_spec m 0) as [->|]. { simpl (INR 0). replace (0 * PI / INR (n - 1)) with 0 by (unfold Rdiv; ring). rewrite cos_0. field. }
  destruct (Nat.eqb_spec m (n - 1)) as [->|]. { replace (INR (n - 1) * PI / INR (n - 1)) with PI by (field; apply not_0_INR; lia). rewrite cos_PI. field. } lra.
Qed.
Lemma coord_zero a b n m : coord ChebZeros a b n m = Xof a b (zero_of_T n m).
Proof. unfold coord, Xof, zero_of_T. replace ((INR m + 0.5) * PI / INR n) with (PI * (INR m + / 2) / INR n) by (unfold Rdiv; lra). lra. Qed.
Lemma coord_fourier a b n m : coord Fourier a b n m = a + INR m * (b - a) / INR n.
Proof. unfold coord. unfold Rdiv. ring. Qed.

(** evaluation on the points is the expansion at the coordinates *)
Lemma eval_is_expansion bs a b n c o : spectral bs = true -> a <> b -> (2 <= n)%nat -> List.length c = n -> List.length o = n ->
  exists v, f_eval (funs_from_pars bs a b) c o (n - 1)%nat = Ok v /\ List.length v = n /\ forall i, (i < n)%nat -> v.[i] = expansion bs a b n c (coord bs a b n i).
Proof.
  intros Hs Hab Hn Lc Lo. destruct bs; try discriminate Hs; cbn [funs_from_pars f_eval expansion].
  - destruct (onExtrema_ok c o (n - 1)) as (v & E & L & _); try lia. destruct (C34_onExtrema_points c o (n - 1) a b) as (v' & E' & V); auto; try lia. assert (v' = v) by congruence. subst v'.
    exists v. split; auto. split; [lia|]. intros i Hi. rewrite coord_extremum, yof_Xof by auto. apply V. lia.
  - destruct (onZeros_ok c o (n - 1)) as (v & E & L & _); try lia. destruct (C34_onZeros_points c o (n - 1) a b) as (v' & E' & V); auto; try lia. assert (v' = v) by congruence. subst v'.
    exists v. split; auto. split; [lia|]. intros i Hi. rewrite coord_zero, yof_Xof by auto. replace n with (n - 1 + 1)%nat at 2 by lia. apply V. lia.
  - destruct (four_eval_ok c o (n - 1)) as (v & E & L & V & _); try lia. exists v. split; auto. split; [lia|]. intros i Hi. rewrite V by lia. replace (n - 1 + 1)%nat with n by lia.
    f_equal. rewrite coord_fourier. unfold phase_at, phase. field. split; [apply not_0_INR; lia|lra].
Qed.
Lemma coeffs_inverse bs a b n u o c : spectral bs = true -> a <> b -> (2 <= n)%nat -> List.length u = n -> List.length o = n -> List.length c = n ->
  f_coeffs (funs_from_pars bs a b) o u (n - 1)%nat = Ok c -> f_eval (funs_from_pars bs a b) c o (n - 1)%nat = Ok u.
Proof.
  intros Hs Hab Hn Lu Lo Lc. destruct bs; try discriminate Hs; cbn [funs_from_pars f_eval f_coeffs]; intros E.
  - destruct (C34_extrema_values o u o (n - 1)) as (c' & u' & E1 & E2 & L & V & _); try lia. assert (c' = c) by congruence. subst c'. rewrite E2. f_equal. apply list_eq_R; [lia|]. intros i Hi. apply V. lia.
  - destruct (C34_zeros_values o u o (n - 1)) as (c' & u' & E1 & E2 & L & V & _); try lia. assert (c' = c) by congruence. subst c'. rewrite E2. f_equal. apply list_eq_R; [lia|]. intros i Hi. apply V. lia.
  - destruct (C37_values o u o (n - 1)) as (c' & u' & E1 & E2 & L & V & _); try lia. assert (c' = c) by congruence. subst c'. rewrite E2. f_equal. apply list_eq_R; [lia|]. intros i Hi. apply V. lia.
Qed.
Lemma cheb_deriv_exact a b n c o d X : a <> b -> (2 <= n)%nat -> List.length c = n -> List.length o = n -> cheb_deriv a b c o (n - 1) = Ok d ->
  derivable_pt_lim (fun X => series c (n - 1) (yof a b X)) X (series d (n - 1) (yof a b X)).
Proof.
  intros Hab Hn Lc Lo E. destruct (C36_deriv a b c o (n - 1)) as (d' & E' & L' & _ & V); auto; try lia. assert (d' = d) by congruence. subst d'.
  destruct (V (fun X => series c (n - 1) (yof a b X)) X) as (v & Ev & Dv). { intros Z. rewrite cheb_eval_ok by lia. reflexivity. } rewrite cheb_eval_ok in Ev by lia. injection Ev as Ev. rewrite Ev. exact Dv.
Qed.
(** derivative of the expansion: exact at the grid points, and everywhere without a lone cosine *)
Lemma deriv_exact bs a b n c o d : spectral bs = true -> a <> b -> (2 <= n)%nat -> List.length c = n -> List.length o = n -> f_deriv (funs_from_pars bs a b) c o (n - 1)%nat = Ok d ->
  (forall i, (i < n)%nat -> derivable_pt_lim (expansion bs a b n c) (coord bs a b n i) (expansion bs a b n d (coord bs a b n i))) /\
  ((has_lone_cosine bs n = true -> c.[n - 1] = 0) -> forall X, derivable_pt_lim (expansion bs a b n c) X (expansion bs a b n d X)) /\ (has_lone_cosine bs n = true -> d.[n - 1] = 0).
Proof.
  intros Hs Hab Hn Lc Lo. destruct bs; try discriminate Hs; cbn [funs_from_pars f_deriv expansion has_lone_cosine]; intros E.
  - repeat split; try discriminate; intros; now apply cheb_deriv_exact with o.
  - repeat split; try discriminate; intros; now apply cheb_deriv_exact with o.
  - replace n with (n - 1 + 1)%nat by lia. replace (n - 1 + 1 - 1)%nat with (n - 1)%nat by lia. repeat split.
    + intros i Hi. rewrite coord_fourier. destruct (C38_at_grid a b c o o (n - 1)) as (d' & u' & E1 & E2 & D); auto; try lia. assert (d' = d) by congruence. subst d'.
      destruct (four_deriv_ok a b c o (n - 1)) as (d' & E1' & L' & _); try lia. assert (d' = d) by congruence. subst d'.
      destruct (four_eval_ok d o (n - 1)) as (v & E3 & _ & V & _); try lia. assert (v = u') by congruence. subst v. specialize (D i ltac:(lia)). rewrite V in D by lia.
      replace (phase_at a b (a + INR i * (b - a) / INR (n - 1 + 1))) with (phase (n - 1 + 1) i); auto. unfold phase_at, phase. field. split; [apply not_0_INR; lia|lra].
    + intros H X. destruct (C38_everywhere a b c o (n - 1) X) as (d' & E1 & D); auto; try lia. assert (d' = d) by congruence. subst d'. exact D.
    + intros Ev. destruct (four_deriv_ok a b c o (n - 1)) as (d' & E1 & _ & _ & _ & Z & _); try lia. assert (d' = d) by congruence. subst d'. auto.
Qed.
Lemma deriv_length bs a b n c o d : spectral bs = true -> (2 <= n)%nat -> List.length c = n -> List.length o = n -> f_deriv (funs_from_pars bs a b) c o (n - 1)%nat = Ok d -> List.length d = n.
Proof. intros Hs Hn Lc Lo E. destruct (spectral_linear bs a b n Hs Hn) as (_ & [B HB] & _). rewrite HB in E by auto. injection E as <-. apply apply_length. Qed.

(** ** A box direction with a spectral basis: for every line of data u there is an expansion f with f(X_i) = u_i at the coordinates,
    whose coefficients Mcoeffs.u are, which Meval inverts; D.u is f' at the coordinates; DD.u is f'' (Fourier with an even number of
    points: if the lone cosine is absent); F.u is f without its filt highest coefficients; Int.u is an antiderivative of f
    if the highest mode, which has none, is absent. *)
Theorem C56_matrices bs a b n filt : spectral bs = true -> a <> b -> (2 <= n)%nat -> (0 <= filt <= Z.of_nat n)%Z ->
  let X := coord bs a b n in
  exists m, setup_dir bs a b n filt = Ok m /\
  forall u o, List.length u = n -> List.length o = n ->
  exists c Du DDu v w, let f := expansion bs a b n c in
    List.length c = n /\ matrix_times_vector (m_coeffs m) u o n = Ok c /\ matrix_times_vector (m_eval m) c o n = Ok u /\
    (forall i, (i < n)%nat -> f (X i) = u.[i]) /\
    matrix_times_vector (m_D m) u o n = Ok Du /\ (forall i, (i < n)%nat -> derivable_pt_lim f (X i) Du.[i]) /\
    matrix_times_vector (m_DD m) u o n = Ok DDu /\
      ((has_lone_cosine bs n = true -> c.[n - 1] = 0) -> exists f', (forall x, derivable_pt_lim f x (f' x)) /\ forall i, (i < n)%nat -> derivable_pt_lim f' (X i) DDu.[i]) /\
    matrix_times_vector (m_F m) u o n = Ok v /\
      (exists cf, (forall j, (j < n)%nat -> cf.[j] = if (Z.of_nat j <? Z.of_nat n - filt)%Z then c.[j] else 0) /\ forall i, (i < n)%nat -> v.[i] = expansion bs a b n cf (X i)) /\
    matrix_times_vector (m_Int m) u o n = Ok w /\
      ((has_top_mode bs n = true -> c.[n - 1] = 0) -> exists G, (forall x, derivable_pt_lim G x (f x)) /\ (bs <> Fourier -> G b = 0) /\ forall i, (i < n)%nat -> w.[i] = G (X i)).
Proof.
  intros Hs Hab Hn Hf X. destruct (setup_pipeline bs a b n filt Hs Hn Hf) as (m & E & P). exists m. split; auto. intros u o Lu Lo.
  destruct (P u o Lu Lo) as (c & d & Du & e & DDu & c' & v & I & w & Lc & E1 & M1 & M2 & E3 & Ld & E4 & M3 & E5 & E6 & M4 & Lc' & Vc' & E7 & E8 & M5 & E9 & LI & E10 & M6). clear P.
  assert (Eu := coeffs_inverse bs a b n u o c Hs Hab Hn Lu Lo Lc E1).
  assert (Vu : forall i, (i < n)%nat -> expansion bs a b n c (X i) = u.[i]).
  { intros i Hi. destruct (eval_is_expansion bs a b n c o) as (u' & Eu' & _ & V); auto. assert (u' = u) by congruence. subst u'. unfold X. now rewrite V. }
  exists c, Du, DDu, v, w. cbv zeta. split; auto. split; auto. split. { rewrite M2; auto. } split; auto. split; auto.
  destruct (deriv_exact bs a b n c o d) as (D1 & D2 & D3); auto. destruct (deriv_exact bs a b n d o e) as (D4 & _ & _); auto.
  split. { intros i Hi. destruct (eval_is_expansion bs a b n d o) as (Du' & EDu & _ & V); auto. assert (Du' = Du) by congruence. subst Du'. rewrite V by auto. apply D1; auto. }
  split; auto. split. { intros H. exists (expansion bs a b n d). split; [apply D2; auto|]. intros i Hi. destruct (eval_is_expansion bs a b n e o) as (w' & Ew & _ & V); auto. { now apply (deriv_length bs a b n d o). } assert (w' = DDu) by congruence. subst w'. rewrite V by auto. apply D4; auto. }
  split; auto. split. { exists c'. split; auto. intros i Hi. destruct (Z.eq_dec filt 0) as [Z|NZ].
    - rewrite E8 by auto. rewrite <- Vu by auto. assert (c' = c); [|now subst]. apply list_eq_R; [lia|]. intros j Hj. rewrite Vc' by lia. destruct (Z.ltb_spec (Z.of_nat j) (Z.of_nat n - filt)); auto. lia.
    - destruct (eval_is_expansion bs a b n c' o) as (v' & Ev & _ & V); auto. rewrite E7 in Ev by auto. assert (v' = v) by congruence. subst v'. now apply V. }
  split; auto. intros H.
  destruct (eval_is_expansion bs a b n I o) as (w' & Ew & _ & V); auto. assert (w' = w) by congruence. subst w'.
  clear D1 D2 D3 D4 E3 E4 E5 E6 E7 E8 Vc' M1 M2 M3 M4 M5 M6 Eu Vu. unfold X. destruct bs; try discriminate Hs; cbn [funs_from_pars f_int callp expansion has_top_mode f_eval] in *.
  - destruct (C36_int a b c o (n - 1)) as (d' & E' & L' & _ & G & EG & Gb & DG); auto; try lia. assert (d' = I) by congruence. subst d'. exists G. split; [|split]; auto.
    + intros x. destruct (DG x) as (z & Ez & Dz). rewrite cheb_eval_ok in Ez by lia. injection Ez as Ez. rewrite Ez. exact Dz.
    + intros i Hi. rewrite V by auto. specialize (EG (coord ChebExtrema a b n i)). rewrite cheb_eval_ok in EG by lia. congruence.
  - destruct (C36_int a b c o (n - 1)) as (d' & E' & L' & _ & G & EG & Gb & DG); auto; try lia. assert (d' = I) by congruence. subst d'. exists G. split; [|split]; auto.
    + intros x. destruct (DG x) as (z & Ez & Dz). rewrite cheb_eval_ok in Ez by lia. injection Ez as Ez. rewrite Ez. exact Dz.
    + intros i Hi. rewrite V by auto. specialize (EG (coord ChebZeros a b n i)). rewrite cheb_eval_ok in EG by lia. congruence.
  - destruct (C38_integral a b c o o (n - 1)) as (d' & u' & G & E1' & E2' & VG & DG); auto; try lia. assert (d' = I) by congruence. subst d'. assert (u' = w) by congruence. subst u'.
    replace (n - 1 + 1)%nat with n in * by lia. exists G. split; [|split]; [|congruence|].
    + intros x. specialize (DG x). destruct (Nat.even n) eqn:Ev; auto. rewrite <- (H eq_refl) in DG. replace (upd c (n - 1) c.[n - 1]) with c in DG; auto.
      apply list_eq_R. { now rewrite upd_length. } intros i Hi. destruct (Nat.eq_dec i (n - 1)) as [->|N]; [rewrite nth_upd_eq; auto|now rewrite nth_upd_ne by auto].
    + intros i Hi. rewrite coord_fourier. apply VG. lia.
Qed.
(** ** Coordinates: inside the box, strictly increasing, and the Chebyshev extrema and one-sided grids contain both ends *)
Theorem C56_coordinates bs a b n i j : a < b -> (2 <= n)%nat -> (i < j < n)%nat -> a <= coord bs a b n i < coord bs a b n j /\ coord bs a b n j <= b.
Proof.
  intros Hab Hn Hij. assert (N0 : 0 < INR n) by (apply lt_0_INR; lia). assert (N1 : 0 < INR (n - 1)) by (apply lt_0_INR; lia). assert (PP := PI_RGT_0).
  assert (Iij : INR i < INR j) by (apply lt_INR; lia). assert (I0 := pos_INR i). assert (Jn : INR j <= INR (n - 1)) by (apply le_INR; lia). assert (Jn' : INR j < INR n) by (apply lt_INR; lia).
  assert (Q : forall N, 0 < N -> INR j <= N -> 0 <= INR i / N < INR j / N /\ INR j / N <= 1).
  { intros N HN HJ. split; [split|].
    - apply Rmult_le_pos; auto. left. now apply Rinv_0_lt_compat. - apply Rmult_lt_compat_r; auto. now apply Rinv_0_lt_compat. - apply (Rmult_le_reg_r N); auto. unfold Rdiv. rewrite Rmult_assoc, Rinv_l; lra. }
  destruct bs.
  - rewrite !coord_extremum by lia. unfold Xof, extremum. destruct (Q (INR (n - 1)) N1 Jn) as [[Q1 Q2] Q3].
    assert (C : cos (INR j * PI / INR (n - 1)) < cos (INR i * PI / INR (n - 1))). { replace (INR j * PI / INR (n - 1)) with (INR j / INR (n - 1) * PI) by (unfold Rdiv; ring). replace (INR i * PI / INR (n - 1)) with (INR i / INR (n - 1) * PI) by (unfold Rdiv; ring). apply cos_decreasing_1; nra. }
    assert (B1 := COS_bound (INR i * PI / INR (n - 1))). assert (B2 := COS_bound (INR j * PI / INR (n - 1))). nra.
  - rewrite !coord_zero. unfold Xof, zero_of_T.
    assert (C : cos (PI * (INR j + / 2) / INR n) < cos (PI * (INR i + / 2) / INR n)).
    { assert (Jn2 : INR j + 1 <= INR n). { replace (INR j + 1) with (INR (j + 1)) by (rewrite plus_INR; simpl; lra). apply le_INR. lia. }
      assert (IN : 0 < / INR n) by now apply Rinv_0_lt_compat. assert (NI : INR n * / INR n = 1) by (apply Rinv_r; lra). set (N' := / INR n) in *. replace (PI * (INR j + / 2) / INR n) with ((INR j + / 2) * N' * PI) by (unfold N', Rdiv; ring). replace (PI * (INR i + / 2) / INR n) with ((INR i + / 2) * N' * PI) by (unfold N', Rdiv; ring). assert (0 <= (INR i + / 2) * N' < (INR j + / 2) * N') by nra. assert ((INR j + / 2) * N' <= 1) by nra. apply cos_decreasing_1; nra. }
    assert (B1 := COS_bound (PI * (INR i + / 2) / INR n)). assert (B2 := COS_bound (PI * (INR j + / 2) / INR n)). nra.
  - rewrite !coord_fourier. destruct (Q (INR n) N0 ltac:(lra)) as [[Q1 Q2] Q3]. unfold Rdiv in *. nra.
  - unfold coord. destruct (Q (INR (n - 1)) N1 Jn) as [[Q1 Q2] Q3]. unfold Rdiv in *. nra.
  - unfold coord. destruct (Q (INR n) N0 ltac:(lra)) as [[Q1 Q2] Q3]. unfold Rdiv in *. nra.
Qed.
Theorem C56_ends a b n : (2 <= n)%nat -> coord ChebExtrema a b n 0 = a /\ coord ChebExtrema a b n (n - 1) = b /\ coord fd2_onesided a b n 0 = a /\ coord fd2_onesided a b n (n - 1) = b.
Proof.
  intros Hn. assert (N1 : INR (n - 1) <> 0) by (apply not_0_INR; lia). unfold coord. cbn [Nat.eqb]. rewrite Nat.eqb_refl. destruct (Nat.eqb_spec (n - 1) 0); [lia|].
  repeat split. - simpl (INR 0). unfold Rdiv. ring. - field. auto.
Qed.
(** ** The finite difference bases cannot be used: setting up a box with them calls a NULL pointer (no integration function). *)
Theorem C56_fd2_refuted bs a b n filt : bs = fd2_onesided \/ bs = fd2_periodic -> (3 <= n)%nat -> (0 <= filt <= Z.of_nat n)%Z -> setup_dir bs a b n filt = UB.
Proof.
  intros Hb Hn Hf. assert (Lz := repeat_length 0 (n * n)).
  destruct (C41_linear n a b ltac:(lia)) as (_ & _ & _ & _ & _ & _ & _ & _ & _ & _ & [A HA] & [E HE] & HP & HO).
  assert (HB : linear_fn n (f_deriv (funs_from_pars bs a b))) by (destruct Hb; subst bs; cbn; auto). destruct HB as [B HB].
  assert (Fc : f_coeffs (funs_from_pars bs a b) = fd2_coeffs) by (destruct Hb; subst bs; reflexivity).
  assert (Fe : f_eval (funs_from_pars bs a b) = fd2_eval) by (destruct Hb; subst bs; reflexivity).
  assert (Fi : f_int (funs_from_pars bs a b) = None) by (destruct Hb; subst bs; reflexivity).
  assert (Ff : f_filter (funs_from_pars bs a b) = fd2_filter) by (destruct Hb; subst bs; reflexivity).
  unfold setup_dir, through_box. cbn [f_coeffs f_deriv f_2nd f_int f_eval f_filter f_basis]. cbv zeta. rewrite Fc, Fe, Fi, Ff.
  destruct (initdiffmatrix_ok (repeat 0 (n * n)) (repeat 0 (n * n)) n fd2_coeffs (f_deriv (funs_from_pars bs a b)) fd2_eval A B E) as (D & DD & E1 & _); auto. rewrite E1. cbn [rbind].
  assert (XF : exists F, initfiltermatrix (repeat 0 (n * n)) (Z.of_nat n + 1 - filt) n fd2_coeffs fd2_filter fd2_eval = Ok F).
  { destruct (Z.eq_dec filt 0) as [->|NZ].
    - destruct (C41_nofilter n (Z.of_nat n + 1 - 0) fd2_coeffs fd2_filter fd2_eval (repeat 0 n) (repeat 0 n)) as (F & EF & _); try apply repeat_length; [lia|]. eauto.
    - unfold initfiltermatrix. cbv zeta. destruct (Z.leb_spec (Z.of_nat n + 1 - filt) (Z.of_nat n)); [|lia]. destruct (Z.ltb_spec (Z.of_nat n + 1 - filt) 1); [lia|].
      match goal with |- context [for_nat 0 n ?bdy ?st] => destruct (for_nat_inv (fun _ s => let '(u, c, d, D) := s in List.length u = n /\ List.length c = n /\ List.length d = n /\ List.length D = (n * n)%nat) bdy 0 n st) as (t & ER & P) end.
      + lia. + rewrite !repeat_length. auto.
      + intros j [[[u c] d] D1] Hj (Lu & Lc & Ld & LD). rewrite wr_ok by lia. cbn [rbind].
        assert (X : fd2_coeffs c (upd u j 1) (n - 1)%nat = Ok (apply n A (upd u j 1))) by (apply HA; auto; now rewrite upd_length). rewrite X. cbn [rbind]. unfold fd2_filter. cbn [rbind].
        rewrite HE by (auto; apply apply_length). cbn [rbind]. destruct (put_column_ok D1 (apply n E (apply n A (upd u j 1))) n j) as (D2 & E2 & L2 & _); auto; [apply apply_length|lia|].
        rewrite E2. cbn [rbind]. rewrite wr_ok by (rewrite upd_length; lia). cbn [rbind]. eexists. split; [reflexivity|]. cbv beta iota. rewrite ?upd_length, ?apply_length. auto.
      + rewrite ER. destruct t as [[[u c] d] D1]. cbn [rbind]. eauto. }
  destruct XF as [F EF]. rewrite EF. cbn [rbind].
  destruct (initMatrix_ForCoeffs_ok (repeat 0 (n * n)) n fd2_coeffs A HA Lz) as (Mc & E3 & _). rewrite E3. cbn [rbind].
  destruct (initMatrix_ToEvaluate_ok (repeat 0 (n * n)) n fd2_eval E HE Lz) as (Me & E4 & _). rewrite E4. cbn [rbind].
  unfold initIntegrationMatrix, initdiffmatrix2. cbv zeta. cbn [callp]. unfold for_nat. replace (n - 0)%nat with (S (n - 1)) by lia. cbn [seq forl].
  rewrite wr_ok by (rewrite repeat_length; lia). cbn [rbind]. assert (X : fd2_coeffs (repeat 0 n) (upd (repeat 0 n) 0 1) (n - 1)%nat = Ok (apply n A (upd (repeat 0 n) 0 1))) by (apply HA; rewrite ?upd_length, repeat_length; auto). rewrite X. reflexivity.
Qed.
(** Fourier with an even number of points: the second derivative matrix annihilates the lone cosine, whose second derivative is not zero. *)
Theorem C56_fourier_even_refuted : exists m u DDu, setup_dir Fourier 0 (2 * PI) 2 0 = Ok m /\ u = [1; -1] /\ matrix_times_vector (m_DD m) u [0; 0] 2 = Ok DDu /\
  (forall i, (i < 2)%nat -> cos (coord Fourier 0 (2 * PI) 2 i) = u.[i]) /\ DDu.[0] = 0 /\ derivable_pt_lim (fun x => - sin x) (coord Fourier 0 (2 * PI) 2 0) (-1).
Proof.
  assert (PP := PI_neq0). destruct (setup_pipeline Fourier 0 (2 * PI) 2 0) as (m & E & P); auto; try lia.
  destruct (P [1; -1] [0; 0]) as (c & d & Du & e & DDu & c' & v & I & w & Lc & E1 & M1 & M2 & E3 & Ld & E4 & M3 & E5 & E6 & M4 & _); auto.
  exists m, [1; -1], DDu. split; auto. split; auto. split; auto. split; [|split].
  - intros i Hi. rewrite coord_fourier. destruct i as [|[|]]; [| |lia]. + simpl (INR 0). replace (0 + 0 * (2 * PI - 0) / INR 2) with 0 by (unfold Rdiv; ring). apply cos_0. + replace (0 + INR 1 * (2 * PI - 0) / INR 2) with PI by (simpl; field). apply cos_PI.
  - cbn [funs_from_pars f_deriv f_eval] in *. replace (2 - 1)%nat with 1%nat in * by lia.
    destruct (four_deriv_ok 0 (2 * PI) d [0; 0] 1) as (e' & Ee & Le & _ & Z0 & Z1 & _); [lia|simpl; lia|]. assert (e' = e) by congruence. subst e'.
    destruct (four_eval_ok e [0; 0] 1) as (w' & Ew & _ & V & _); [simpl in Le; lia|simpl; lia|]. assert (w' = DDu) by congruence. subst w'. rewrite V by lia. unfold tpoly. cbn [Nat.add]. rewrite !Sig_S. simpl Sig. rewrite Z0, (Z1 eq_refl). ring.
  - rewrite coord_fourier. simpl (INR 0). replace (0 + 0 * (2 * PI - 0) / INR 2) with 0 by (unfold Rdiv; ring). replace (-1) with (- cos 0) by (rewrite cos_0; ring). apply derivable_pt_lim_opp. apply derivable_pt_lim_sin.
Qed.
(** one point in a Chebyshev direction: the set-up reads before the array *)
Theorem C56_one_point_refuted a b : setup_dir ChebZeros a b 1 0 = UB.
Proof. reflexivity. Qed.
Example C56_example : spectral ChebExtrema = true /\ (0 : R) <> 1 /\ (2 <= 5)%nat /\ (0 <= 2 <= Z.of_nat 5)%Z. Proof. repeat split; try lia. lra. Qed.

(** the functions chosen for the finite difference bases are the right ones: the matrix D built from them gives, for fd2_onesided, the exact derivative of every quadratic
    at every coordinate, and for fd2_periodic the centred difference with periodic neighbours; the function for second derivatives (never passed on, see C56_fd2_refuted) is
    exact for cubics, or the periodic centred second difference *)
Theorem C56_fd2_functions a b n u v0 : a <> b -> (4 <= n)%nat -> List.length u = n -> List.length v0 = n ->
  (let f := funs_from_pars fd2_onesided a b in exists D DD v, initdiffmatrix (repeat 0 (n * n)) (repeat 0 (n * n)) n (f_coeffs f) (f_deriv f) (f_eval f) = Ok (D, DD) /\ matrix_times_vector D u v0 n = Ok v /\
    (forall p, quadratic p -> (forall j, (j < n)%nat -> u.[j] = p (coord fd2_onesided a b n j)) -> forall j, (j < n)%nat -> derivable_pt_lim p (coord fd2_onesided a b n j) v.[j]) /\
    exists g, f_2nd f = Some g /\ forall p p', cubic p -> (forall x, derivable_pt_lim p x (p' x)) -> (forall j, (j < n)%nat -> u.[j] = p (coord fd2_onesided a b n j)) ->
      exists w, g u v0 (n - 1)%nat = Ok w /\ forall j, (j < n)%nat -> derivable_pt_lim p' (coord fd2_onesided a b n j) w.[j]) /\
  (let f := funs_from_pars fd2_periodic a b in let h := (b - a) / INR n in exists D DD v, initdiffmatrix (repeat 0 (n * n)) (repeat 0 (n * n)) n (f_coeffs f) (f_deriv f) (f_eval f) = Ok (D, DD) /\ matrix_times_vector D u v0 n = Ok v /\
    (forall j, (j < n)%nat -> v.[j] = (u.[(j + 1) mod n] - u.[(j + n - 1) mod n]) / (2 * h)) /\
    exists g w, f_2nd f = Some g /\ g u v0 (n - 1)%nat = Ok w /\ forall j, (j < n)%nat -> w.[j] = (u.[(j + 1) mod n] - 2 * u.[j] + u.[(j + n - 1) mod n]) / (h * h)).
Proof.
  intros Hab Hn Lu Lv. destruct (C41_linear n a b ltac:(lia)) as (_ & _ & _ & _ & _ & _ & _ & _ & _ & _ & HA & HE & HP & HO). assert (Lz : List.length (repeat 0 (n * n)) = (n * n)%nat) by apply repeat_length.
  assert (UG : forall j, coord fd2_onesided a b n j = ugrid a b (n - 1) j). { intros j. unfold coord, ugrid. f_equal. unfold Rdiv. ring. }
  split.
  - intros f. destruct (C41_initdiffmatrix n fd2_coeffs (fd2_deriv_onesidedBC a b) fd2_eval _ _ HA (HO ltac:(lia)) HE Lz Lz) as (D & DD & E & _ & _ & H). destruct (H u v0 v0 v0 v0 Lu Lv Lv Lv Lv) as (c & d & v & e & w & E1 & E2 & E3 & E4 & _). exists D, DD, v. split; auto. split; auto.
    destruct (C40_coeffs v0 u (n - 1)) as [F1 _]; try lia. rewrite F1 in E1. injection E1 as <-. split.
    + intros p Hp Hu j Hj. destruct (C40_onesided a b u v0 (n - 1) p) as (d' & G1 & Ld & G2); auto; try lia. { intros i Hi. rewrite <- UG. apply Hu. lia. } rewrite G1 in E2. injection E2 as <-. destruct (C40_coeffs d' v0 (n - 1)) as [_ F2]; try lia. destruct (C40_coeffs v0 d' (n - 1)) as [_ F3]; try lia. rewrite F3 in E3. injection E3 as <-. rewrite UG. apply G2. lia.
    + exists (fd2_2ndderiv_onesidedBC a b). split; auto. intros p p' Hp Hp' Hu. destruct (C40_onesided2 a b u v0 (n - 1) p p') as (w' & G1 & Lw & G2); auto; try lia. { intros i Hi. rewrite <- UG. apply Hu. lia. } exists w'. split; auto. intros j Hj. rewrite UG. apply G2. lia.
  - intros f h. destruct (C41_initdiffmatrix n fd2_coeffs (fd2_deriv_periodic a b) fd2_eval _ _ HA HP HE Lz Lz) as (D & DD & E & _ & _ & H). destruct (H u v0 v0 v0 v0 Lu Lv Lv Lv Lv) as (c & d & v & e & w & E1 & E2 & E3 & E4 & _). exists D, DD, v. split; auto. split; auto.
    destruct (C40_coeffs v0 u (n - 1)) as [F1 _]; try lia. rewrite F1 in E1. injection E1 as <-. destruct (C40_periodic a b u v0 (n - 1)) as [(d' & G1 & Ld & G2) (w' & G3 & Lw & G4)]; auto; try lia. replace (n - 1 + 1)%nat with n in * by lia. split.
    + intros j Hj. rewrite G1 in E2. injection E2 as <-. destruct (C40_coeffs v0 d' (n - 1)) as [_ F3]; try lia. rewrite F3 in E3. injection E3 as <-. apply G2. auto.
    + exists (fd2_2ndderiv_periodic a b), w'. split; auto.
Qed.
Print Assumptions C56_fd2_functions.
Print Assumptions C56_matrices.
Print Assumptions C56_coordinates.
Print Assumptions C56_ends.
Print Assumptions C56_fd2_refuted.
Print Assumptions C56_fourier_even_refuted.
Print Assumptions C56_one_point_refuted.
