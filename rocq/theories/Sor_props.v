(** C32: SOR sweeps and matrix_SOR. *)
From Verif Require Import Base Loops Rsum Sparse_model Sparse_spec Sparse_proofs Sparse_props Solvers_model Solvers_spec Solvers_proofs.
Local Open Scope R_scope.

Section C32.
Variables (n : nat) (A : list (list (nat * R))) (b : list R).
Hypothesis SQ : square n A.
Hypothesis LB : List.length b = n.
(** line i of A x *)
Definition Ax (x : list R) (i : nat) : R := Sig n (fun j => elem A i j * x.[j]).

(** the sweep uses the newest values: those to the left of the diagonal are already updated *)
Theorem C32_sweep x omega : List.length x = n -> (forall i, (i < n)%nat -> elem A i i <> 0) ->
  exists x', SOR_step A x b omega = Ok x' /\ List.length x' = n /\ forall i, (i < n)%nat ->
    x'.[i] = (1 - omega) * x.[i] + omega / elem A i i *
      (b.[i] - Sig n (fun j => if Nat.ltb j i then elem A i j * x'.[j] else if Nat.eqb j i then 0 else elem A i j * x.[j])).
Proof.
  intros LX DZ. destruct (SOR_step_ok n A x b omega SQ LX LB DZ) as (x' & E & L & H). exists x'. split; auto. split; auto. intros i Hi.
  rewrite H at 1 by auto. unfold sor_val. do 3 f_equal. apply Sig_ext. intros j _. unfold mixed.
  destruct (Nat.eqb_spec j i) as [->|N]; [now rewrite Nat.ltb_irrefl|]. destruct (Nat.ltb j i); auto.
Qed.
Lemma split_diag x i : (i < n)%nat -> Ax x i = elem A i i * x.[i] + Sig n (fun j => if Nat.eqb j i then 0 else elem A i j * x.[j]).
Proof.
  intros Hi. unfold Ax. rewrite <- (Sig_delta n i (fun j => elem A i j * x.[j])) by auto. rewrite <- Sig_plus. apply Sig_ext. intros j _. destruct (Nat.eqb j i); lra.
Qed.
(** a zero on the diagonal stops the program, also if it is a missing entry *)
Theorem C32_zero_diagonal x omega i : List.length x = n -> (i < n)%nat -> elem A i i = 0 -> SOR_step A x b omega = Err.
Proof.
  intros LX Hi Z. destruct SQ as (LA & HP & ND). unfold SOR_step, for_nat. rewrite LA, Nat.sub_0_r.
  enough (G : forall m lo xs, (lo <= i < lo + m)%nat -> (lo + m <= n)%nat -> List.length xs = n ->
    forl (seq lo m) (fun i x => do line <- rd A i; do s <- SOR_line line i x; let '(sig, Aii) := s in
       if Req_EM_T Aii 0 then Err else do xi <- rd x i; do bi <- rd b i; wr x i ((1 - omega) * xi + omega / Aii * (bi - sig))) xs = Err)
    by (apply G; auto; lia).
  induction m as [|m IH]; intros lo xs H1 H2 L; [lia|]. cbn [seq forl]. rewrite (rd_ok _ _ []) by lia. cbn [rbind].
  assert (IN : In (nth lo A []) A) by (apply nth_In; lia).
  rewrite (SOR_line_ok _ _ _ n); auto.
  2:{ unfold positions_below in HP. rewrite Forall_forall in HP. now apply HP. }
  2:{ rewrite Forall_forall in ND. now apply ND. }
  cbn [rbind]. fold (elem A lo lo). destruct (Req_EM_T (elem A lo lo) 0) as [_|NZ]; auto.
  rewrite (rd_ok _ _ 0) by lia. cbn [rbind]. rewrite (rd_ok _ _ 0) by lia. cbn [rbind]. rewrite wr_ok by lia. cbn [rbind]. apply IH; auto.
  - destruct (Nat.eq_dec lo i) as [->|]; [contradiction|lia].
  - lia.
  - now rewrite upd_length.
Qed.
(** the fixed points of a sweep are the solutions *)
Theorem C32_fixed_points x omega : List.length x = n -> (forall i, (i < n)%nat -> elem A i i <> 0) -> omega <> 0 ->
  SOR_step A x b omega = Ok x <-> (forall i, (i < n)%nat -> Ax x i = b.[i]).
Proof.
  intros LX DZ OM. destruct (SOR_step_ok n A x b omega SQ LX LB DZ) as (x' & E & L & H). rewrite E. split.
  - intros EQ i Hi. inversion EQ; subst x'. specialize (H i Hi). unfold sor_val in H.
    set (s := Sig n _) in H. assert (ES : s = Sig n (fun j => if Nat.eqb j i then 0 else elem A i j * x.[j])).
    { apply Sig_ext. intros j _. unfold mixed. now destruct (Nat.ltb j i). }
    rewrite split_diag by auto. rewrite <- ES.
    assert (omega / elem A i i * (b.[i] - s) = omega * x.[i]) by lra. pose proof (DZ i Hi).
    assert (b.[i] - s = elem A i i * x.[i]). { apply (Rmult_eq_reg_l (omega / elem A i i)). { rewrite H0. field. auto. } apply Rmult_integral_contrapositive. split; auto. now apply Rinv_neq_0_compat. }
    lra.
  - intros SOL. f_equal. apply (list_eq_nth 0); [congruence|]. rewrite L. intros i. induction i as [i IH] using lt_wf_ind. intros Hi.
    rewrite H by auto. unfold sor_val. set (s := Sig n _). assert (ES : s = Sig n (fun j => if Nat.eqb j i then 0 else elem A i j * x.[j])).
    { apply Sig_ext. intros j Hj. unfold mixed. destruct (Nat.ltb_spec j i); auto. rewrite IH by lia. auto. }
    rewrite ES. pose proof (SOL i Hi) as SI. rewrite split_diag in SI by auto. rewrite <- SI. field. auto.
Qed.

(** *normres is the norm of A x - b for the returned x; the return value is at most itmax exactly if it is
    within the tolerance; otherwise it is itmax+1 *)
Lemma SOR_loop_ok omega tol : (forall i, (i < n)%nat -> elem A i i <> 0) -> forall fuel it x f nr, List.length x = n -> List.length f = n ->
  nr = norm n (fun i => Ax x i - b.[i]) -> nr > tol ->
  exists it' x' nr', SOR_loop A b omega tol fuel it x f nr = Ok (it', x', nr') /\ List.length x' = n /\ nr' = norm n (fun i => Ax x' i - b.[i]) /\
    (nr' <= tol <-> (it' < it + Z.of_nat fuel)%Z) /\ (it <= it' <= it + Z.of_nat fuel)%Z.
Proof.
  intros DZ. induction fuel as [|fuel IH]; intros it x f nr LX LF HN HT; cbn [SOR_loop].
  - exists it, x, nr. split; auto. split; auto. split; auto. split; [|lia]. split; [lra|lia].
  - destruct (C32_sweep x omega LX DZ) as (x1 & E & L1 & _). rewrite E. cbn [rbind].
    destruct (residual_ok n A x1 b f SQ L1 LB LF) as (f1 & E2 & LF1 & H2). rewrite E2. cbn [rbind].
    assert (NR : sqrt (scalarproduct_vectors f1 f1) = norm n (fun i => Ax x1 i - b.[i])).
    { rewrite (scalar_Sig _ _ n) by auto. unfold norm. f_equal. apply Sig_ext. intros i Hi. now rewrite H2. }
    destruct (Rle_dec _ tol) as [C|C].
    + exists it, x1. eexists. split; [reflexivity|]. split; auto. split; auto. split; [|lia]. split; [lia|auto].
    + destruct (IH (it + 1)%Z x1 f1 _ L1 LF1 NR ltac:(lra)) as (it' & x' & nr' & E' & L' & N' & B' & R').
      exists it', x', nr'. split; auto. split; auto. split; auto. split; [|lia]. rewrite B'. lia.
Qed.
Theorem C32_report x omega itmax tol : List.length x = n -> (forall i, (i < n)%nat -> elem A i i <> 0) -> (0 <= itmax)%Z ->
  exists ret x' normres, matrix_SOR A x b omega itmax tol = Ok (ret, x', normres) /\ List.length x' = n /\
    normres = norm n (fun i => Ax x' i - b.[i]) /\ (normres <= tol <-> (ret <= itmax)%Z) /\ (0 <= ret <= itmax + 1)%Z.
Proof.
  intros LX DZ IM. unfold matrix_SOR. destruct SQ as (LA & _ & _).
  destruct (residual_ok n A x b (repeat 0 (List.length A)) SQ LX LB ltac:(now rewrite repeat_length)) as (f & E & LF & H). rewrite E. cbn [rbind].
  assert (NR : sqrt (scalarproduct_vectors f f) = norm n (fun i => Ax x i - b.[i])).
  { rewrite (scalar_Sig _ _ n) by auto. unfold norm. f_equal. apply Sig_ext. intros i Hi. now rewrite H. }
  destruct (Rle_dec _ tol) as [C|C].
  - exists 0%Z, x. eexists. split; [reflexivity|]. split; auto. split; auto. split; [|lia]. split; [lia|auto].
  - destruct (SOR_loop_ok omega tol DZ (Z.to_nat itmax) 1%Z x f _ LX LF NR ltac:(lra)) as (it' & x' & nr' & E' & L' & N' & B' & R').
    rewrite Z2Nat.id in * by auto. exists it', x', nr'. split; auto. split; auto. split; auto. split; [|lia]. rewrite B'. lia.
Qed.

(** Convergence: for a strictly diagonally dominant matrix and 0 < omega <= 1 every sweep contracts the
    largest error, so that every positive tolerance is reached. *)
Section dominant.
Variables (q omega : R) (xs : list R).
Hypothesis Q : 0 <= q < 1.
Hypothesis OM : 0 < omega <= 1.
Hypothesis DOM : forall i, (i < n)%nat -> elem A i i <> 0 /\ Sig n (fun j => if Nat.eqb j i then 0 else Rabs (elem A i j)) <= q * Rabs (elem A i i).
Hypothesis LXS : List.length xs = n.
Hypothesis SOL : forall i, (i < n)%nat -> Ax xs i = b.[i].
Let rho := 1 - omega * (1 - q).

Theorem C32_contraction x M : List.length x = n -> (forall i, (i < n)%nat -> Rabs (x.[i] - xs.[i]) <= M) ->
  exists x', SOR_step A x b omega = Ok x' /\ List.length x' = n /\ forall i, (i < n)%nat -> Rabs (x'.[i] - xs.[i]) <= (1 - omega * (1 - q)) * M.
Proof.
  intros LX HM. destruct (SOR_step_ok n A x b omega SQ LX LB (fun i Hi => proj1 (DOM i Hi))) as (x' & E & L & H). exists x'. split; auto. split; auto.
  intros i. induction i as [i IH] using lt_wf_ind. intros Hi. destruct (DOM i Hi) as [NZ DM].
  assert (M0 : 0 <= M). { eapply Rle_trans; [apply Rabs_pos|apply (HM i Hi)]. }
  assert (RM : (1 - omega * (1 - q)) * M <= M).
  { assert (0 <= omega * (1 - q)) by (apply Rmult_le_pos; lra). assert (0 <= omega * (1 - q) * M) by now apply Rmult_le_pos. lra. }
  rewrite H by auto. unfold sor_val. pose proof (SOL i Hi) as SI. rewrite split_diag in SI by auto. rewrite <- SI.
  set (d := elem A i i) in *. set (m := mixed (fun j => x'.[j]) (fun j => x.[j]) i).
  replace ((1 - omega) * x.[i] + omega / d * (d * xs.[i] + Sig n (fun j => if Nat.eqb j i then 0 else elem A i j * xs.[j]) - Sig n (fun j => if Nat.eqb j i then 0 else elem A i j * m j)) - xs.[i])
    with ((1 - omega) * (x.[i] - xs.[i]) - omega / d * Sig n (fun j => if Nat.eqb j i then 0 else elem A i j * (m j - xs.[j]))).
  2:{ rewrite (Sig_ext n (fun j => if Nat.eqb j i then 0 else elem A i j * (m j - xs.[j])) (fun j => (if Nat.eqb j i then 0 else elem A i j * m j) - (if Nat.eqb j i then 0 else elem A i j * xs.[j]))) by (intros j _; destruct (Nat.eqb j i); lra).
      rewrite Sig_minus. field. auto. }
  assert (B1 : Rabs (Sig n (fun j => if Nat.eqb j i then 0 else elem A i j * (m j - xs.[j]))) <= q * Rabs d * M).
  { eapply Rle_trans; [apply Sig_abs|]. eapply Rle_trans; [|apply Rmult_le_compat_r; [apply M0|apply DM]]. rewrite <- Sig_scal_r. apply Sig_le. intros j Hj.
    destruct (Nat.eqb_spec j i) as [->|NE]; [rewrite Rabs_R0; lra|]. rewrite Rabs_mult. apply Rmult_le_compat_l; [apply Rabs_pos|]. unfold m, mixed.
    destruct (Nat.ltb_spec j i); [|now apply HM]. eapply Rle_trans; [|apply RM]. apply IH; lia. }
  assert (AD : 0 < Rabs d) by now apply Rabs_pos_lt.
  match goal with |- Rabs (?u - ?v) <= _ => change (u - v) with (u + - v) end. eapply Rle_trans; [apply Rabs_triang|]. rewrite Rabs_Ropp, !Rabs_mult. unfold Rdiv. rewrite Rabs_mult, Rabs_inv.
  rewrite (Rabs_right (1 - omega)), (Rabs_right omega) by lra.
  assert (T1 : (1 - omega) * Rabs (x.[i] - xs.[i]) <= (1 - omega) * M) by (apply Rmult_le_compat_l; [lra|now apply HM]).
  assert (T2 : omega * / Rabs d * Rabs (Sig n (fun j => if Nat.eqb j i then 0 else elem A i j * (m j - xs.[j]))) <= omega * (q * M)).
  { rewrite Rmult_assoc. apply Rmult_le_compat_l; [lra|]. apply (Rmult_le_reg_l (Rabs d)); auto. rewrite <- Rmult_assoc, Rinv_r, Rmult_1_l by lra. lra. }
  lra.
Qed.
Lemma norm_le_sum m f : norm m f <= Sig m (fun i => Rabs (f i)).
Proof.
  assert (P0 : 0 <= Sig m (fun i => Rabs (f i))) by (apply Sig_nonneg; intros; apply Rabs_pos).
  unfold norm. rewrite <- (sqrt_Rsqr (Sig m (fun i => Rabs (f i)))) by auto. apply sqrt_le_1_alt. unfold Rsqr. clear P0.
  induction m as [|m IH]; cbn [Sig]; [lra|].
  assert (0 <= Sig m (fun i => Rabs (f i))) by (apply Sig_nonneg; intros; apply Rabs_pos).
  assert (f m * f m = Rabs (f m) * Rabs (f m)). { change (Rsqr (f m) = Rsqr (Rabs (f m))). apply Rsqr_abs. }
  pose proof (Rabs_pos (f m)). nra.
Qed.
Lemma res_bound x M : (forall i, (i < n)%nat -> Rabs (x.[i] - xs.[i]) <= M) ->
  norm n (fun i => Ax x i - b.[i]) <= Sig n (fun i => Sig n (fun j => Rabs (elem A i j))) * M.
Proof.
  intros HM. eapply Rle_trans; [apply norm_le_sum|]. rewrite <- Sig_scal_r. apply Sig_le. intros i Hi. rewrite <- SOL by auto. unfold Ax.
  rewrite <- Sig_minus. rewrite (Sig_ext n _ (fun j => elem A i j * (x.[j] - xs.[j]))) by (intros; lra).
  eapply Rle_trans; [apply Sig_abs|]. rewrite <- Sig_scal_r. apply Sig_le. intros j Hj. rewrite Rabs_mult. apply Rmult_le_compat_l; [apply Rabs_pos|auto].
Qed.
Lemma SOR_loop_converges tol C : 0 <= C -> (forall x M, (forall i, (i < n)%nat -> Rabs (x.[i] - xs.[i]) <= M) -> norm n (fun i => Ax x i - b.[i]) <= C * M) ->
  forall fuel it x f nr M, List.length x = n -> List.length f = n -> (forall i, (i < n)%nat -> Rabs (x.[i] - xs.[i]) <= M) -> C * (rho ^ S fuel * M) <= tol ->
  exists it' x' nr', SOR_loop A b omega tol (S fuel) it x f nr = Ok (it', x', nr') /\ nr' <= tol.
Proof.
  intros C0 HC. induction fuel as [|fuel IH]; intros it x f nr M LX LF HM HT; cbn [SOR_loop];
    destruct (C32_contraction x M LX HM) as (x1 & E & L1 & H1); rewrite E; cbn [rbind];
    destruct (residual_ok n A x1 b f SQ L1 LB LF) as (f1 & E2 & LF1 & H2); rewrite E2; cbn [rbind];
    (assert (NR : sqrt (scalarproduct_vectors f1 f1) = norm n (fun i => Ax x1 i - b.[i]))
      by (rewrite (scalar_Sig _ _ n) by auto; unfold norm; f_equal; apply Sig_ext; intros i Hi; now rewrite H2));
    destruct (Rle_dec _ tol) as [D|D].
  - do 3 eexists. split; [reflexivity|auto].
  - exfalso. apply D. rewrite NR. eapply Rle_trans; [apply HC, H1|]. cbn in HT. fold rho. lra.
  - do 3 eexists. split; [reflexivity|auto].
  - apply (IH (it + 1)%Z x1 f1 (sqrt (scalarproduct_vectors f1 f1)) (rho * M)); auto. rewrite <- Rmult_assoc, <- tech_pow_Rmult in HT. cbn in HT |- *. lra.
Qed.
Theorem C32_converges x tol : List.length x = n -> 0 < tol ->
  exists N, forall itmax, (N <= itmax)%Z -> exists ret x' normres, matrix_SOR A x b omega itmax tol = Ok (ret, x', normres) /\ (ret <= itmax)%Z /\ normres <= tol /\
    normres = norm n (fun i => Ax x' i - b.[i]).
Proof.
  intros LX T0. set (C := Sig n (fun i => Sig n (fun j => Rabs (elem A i j)))).
  assert (C0 : 0 <= C) by (apply Sig_nonneg; intros; apply Sig_nonneg; intros; apply Rabs_pos).
  set (M := Sig n (fun i => Rabs (x.[i] - xs.[i]))).
  assert (HM : forall i, (i < n)%nat -> Rabs (x.[i] - xs.[i]) <= M).
  { intros i Hi. unfold M. rewrite <- (Sig_delta n i (fun i => Rabs (x.[i] - xs.[i]))) by auto. apply Sig_le. intros j Hj.
    destruct (Nat.eqb j i); [lra|apply Rabs_pos]. }
  assert (M0 : 0 <= M) by (apply Sig_nonneg; intros; apply Rabs_pos).
  assert (RH : Rabs rho < 1). { unfold rho. apply Rabs_def1; nra. }
  destruct (pow_lt_1_zero rho RH (tol / (C * M + 1))) as (N0 & HN0). { apply Rdiv_lt_0_compat; nra. }
  exists (Z.of_nat (S N0)). intros itmax IM. unfold matrix_SOR. destruct SQ as (LA & _ & _).
  assert (DZ : forall i, (i < n)%nat -> elem A i i <> 0) by (intros i Hi; now apply DOM).
  destruct (C32_report x omega itmax tol LX DZ ltac:(lia)) as (ret & x' & nr & E & L' & HN & IFF & _).
  exists ret, x', nr. unfold matrix_SOR in E. rewrite E. enough (nr <= tol) by (split; auto; split; [now apply IFF|auto]).
  destruct (residual_ok n A x b (repeat 0 (List.length A)) SQ LX LB ltac:(now rewrite repeat_length)) as (f & E0 & LF & H). rewrite E0 in E. cbn [rbind] in E.
  destruct (Rle_dec _ tol) as [D|D] in E. { inversion E; subst. auto. }
  destruct (Z.to_nat itmax) as [|fuel] eqn:EF; [lia|].
  destruct (SOR_loop_converges tol C C0 res_bound fuel 1%Z x f (sqrt (scalarproduct_vectors f f)) M LX LF HM) as (it2 & x2 & nr2 & E2 & H2).
  { specialize (HN0 (S fuel) ltac:(lia)). assert (P : rho ^ S fuel <= tol / (C * M + 1)) by (eapply Rle_trans; [apply Rle_abs|lra]).
    replace (C * (rho ^ S fuel * M)) with (rho ^ S fuel * (C * M)) by ring. assert (CM : 0 <= C * M) by nra.
    eapply Rle_trans; [apply Rmult_le_compat_r; [exact CM|exact P]|]. replace (tol / (C * M + 1) * (C * M)) with (tol - tol / (C * M + 1)) by (field; lra).
    assert (0 < tol / (C * M + 1)) by (apply Rdiv_lt_0_compat; nra). lra. }
  rewrite E2 in E. inversion E; subst. auto.
Qed.
End dominant.
End C32.
Print Assumptions C32_sweep. Print Assumptions C32_zero_diagonal. Print Assumptions C32_fixed_points. Print Assumptions C32_report. Print Assumptions C32_contraction. Print Assumptions C32_converges.

(** repeated entries: SOR_step takes the last diagonal entry, the products add them up, so that a fixed
    point is no solution *)
Theorem C32_repeated_entries_refuted : exists A x b, SOR_step A x b 1 = Ok x /\ residual A x b [0] <> Ok [0].
Proof.
  exists [[(0%nat, 1); (0%nat, 1)]], [1], [1]. split.
  - unfold SOR_step, for_nat. cbn. destruct (Req_EM_T 1 0); [lra|]. cbn. do 2 f_equal. lra.
  - unfold residual, SparseMatrixLines_times_vector, for_nat. cbn. intros H. inversion H. lra.
Qed.
Print Assumptions C32_repeated_entries_refuted.

(** a matrix that meets the hypotheses *)
Definition exM : list (list (nat * R)) := [[(0%nat, 2); (1%nat, 1)]; [(1%nat, 4); (0%nat, 1)]].
Example exM_square : square 2 exM.
Proof. split; [reflexivity|]. split; [repeat constructor|]. repeat constructor; cbn; intuition; discriminate. Qed.
Example exM_dominant : forall i, (i < 2)%nat -> elem exM i i <> 0 /\ Sig 2 (fun j => if Nat.eqb j i then 0 else Rabs (elem exM i j)) <= / 2 * Rabs (elem exM i i).
Proof.
  intros [|[|i]] H; try lia; unfold elem, entry, lsum; cbn; unfold Rabs; repeat destruct (Rcase_abs _); split; lra.
Qed.
Example exM_solution : forall i, (i < 2)%nat -> Ax 2 exM [1; 1] i = [3; 5].[i].
Proof. intros [|[|i]] H; try lia; unfold Ax, elem, entry, lsum; cbn; lra. Qed.
