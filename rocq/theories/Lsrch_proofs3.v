From Verif Require Import Rutil Rsum Loops Sparse_model Arrays Solvers_model Solvers_proofs Mat_proofs Lu_model Lu_spec Lu_proofs Lu_props Lsrch_model Lsrch_spec Lsrch_proofs Lsrch_proofs2.
Local Open Scope R_scope.
Section NL.
Variables (n : nat) (F : list R -> list R).
Hypothesis HF : forall x, List.length x = n -> List.length (F x) = n.
Definition lsout (xold p : list R) (fold s0 : R) (r : list R * R * list R * bool) : Prop :=
  exists y mu, 0 < mu <= 1 /\ List.length y = n /\ (forall i, (i < n)%nat -> y.[i] = xold.[i] + mu * p.[i]) /\
  match r with (x, f, fv, chk) => f = energy n F y /\ fv = F y /\ if chk then x = xold /\ near n xold y else x = y /\ energy n F y <= fold + ALPHA * mu * s0 end.
Lemma Rmax1_pos x : 0 < Rmax x 1.
Proof. eapply Rlt_le_trans; [|apply Rmax_r]. lra. Qed.
(** the part after scaling *)
Lemma linesrch_descent xold fold g p stpmax : List.length xold = n -> List.length g = n -> List.length p = n -> 0 < stpmax ->
  let s0 := Sig n (fun i => g.[i] * p.[i]) in s0 < 0 ->
  exists N r, (forall fuel, (N <= fuel)%nat -> linesrch F xold fold g p stpmax fuel = Ok r) /\ lsout xold p fold s0 r.
Proof.
  intros Lx Lg Lp Hst s0 Hs. set (sm := sqrt (sumsq p)).
  assert (C : exists c p', 0 < c <= 1 /\ (if Rlt_dec stpmax sm then map (fun pi => pi * (stpmax / sm)) p else p) = p' /\ List.length p' = n /\ forall i, (i < n)%nat -> p'.[i] = c * p.[i]).
  { destruct (Rlt_dec stpmax sm) as [H|H].
    - exists (stpmax / sm), (map (fun pi => pi * (stpmax / sm)) p). split. { split. - apply Rdiv_lt_0_compat; lra. - apply Rmult_le_reg_r with sm; [lra|]. unfold Rdiv. rewrite Rmult_assoc, Rinv_l; lra. } split; auto. split; [now rewrite map_length|]. intros i Hi. rewrite (nth_map0 _ p n) by auto. ring.
    - exists 1, p. split; [lra|]. split; auto. split; auto. intros. ring. }
  destruct C as (c & p' & Hc & Ep & Lp' & Vp).
  assert (Es : scalarproduct_vectors g p' = c * s0). { rewrite (scalar_Sig g p' n) by auto. unfold s0. rewrite <- Sig_scal. apply Sig_ext. intros i Hi. rewrite Vp by auto. ring. }
  set (tl := zip (fun pi xo => Rabs pi / Rmax (Rabs xo) 1) p' xold).
  assert (Ltl : List.length tl = n) by (now apply zip_length).
  assert (Vtl : forall i, (i < n)%nat -> tl.[i] = Rabs p'.[i] / Rmax (Rabs xold.[i]) 1). { intros i Hi. unfold tl. now rewrite (nth_zip _ p' xold n). }
  assert (Ht : 0 < maxloop tl).
  { destruct (Req_dec (maxloop tl) 0) as [Z|NZ]; [|pose proof (maxloop_nonneg tl); lra]. exfalso. assert (c * s0 = 0); [|nra]. rewrite <- Es, (scalar_Sig g p' n) by auto. apply Sig_zero. intros i Hi.
    assert (B : Rabs p'.[i] / Rmax (Rabs xold.[i]) 1 <= 0). { rewrite <- Vtl by auto. rewrite <- Z. apply maxloop_ge. apply nth_In. lia. }
    pose proof (Rmax1_pos (Rabs xold.[i])) as M. assert (Rabs p'.[i] <= 0). { apply Rmult_le_reg_r with (/ Rmax (Rabs xold.[i]) 1); [now apply Rinv_0_lt_compat|]. unfold Rdiv in B. lra. }
    assert (p'.[i] = 0). { destruct (Req_dec p'.[i] 0); auto. pose proof (Rabs_pos_lt _ H0). lra. } rewrite H0. ring. }
  assert (Hl : 0 < TOLX / maxloop tl) by (apply Rdiv_lt_0_compat; [apply TOLX_pos|auto]).
  destruct (ls_terminates F xold p' fold (c * s0) ltac:(nra) (TOLX / maxloop tl) Hl) as (N & HN).
  destruct (HN N ltac:(lia)) as (r & Er & Pr). exists N, r. split.
  - intros fuel Hf. unfold linesrch. fold sm. rewrite Ep. cbv zeta. rewrite Es. fold tl. destruct (Req_EM_T (maxloop tl) 0) as [Z|_]; [lra|]. replace fuel with (N + (fuel - N))%nat by lia. now apply ls_loop_more.
  - destruct r as [[[x f] fv] chk]. destruct Pr as (lam & Hlam & -> & -> & Pr). exists (pt xold p' lam), (lam * c). assert (Ly : List.length (pt xold p' lam) = n) by (now apply zip_length).
    assert (Vy : forall i, (i < n)%nat -> (pt xold p' lam).[i] = xold.[i] + lam * c * p.[i]). { intros i Hi. unfold pt. rewrite (nth_zip _ xold p' n) by auto. rewrite Vp by auto. ring. }
    split. { split; nra. } split; auto. split; auto. split; [now apply fmin_energy|]. split; auto. destruct chk.
    + destruct Pr as [-> Pr]. split; auto. intros i Hi. rewrite Vy by auto. fold TOLX. replace (xold.[i] + lam * c * p.[i] - xold.[i]) with (lam * p'.[i]) by (rewrite Vp by auto; ring). rewrite Rabs_mult, (Rabs_pos_eq lam) by lra.
      pose proof (Rmax1_pos (Rabs xold.[i])) as M. assert (B : Rabs p'.[i] / Rmax (Rabs xold.[i]) 1 <= maxloop tl). { rewrite <- Vtl by auto. apply maxloop_ge, nth_In. lia. }
      assert (B2 : Rabs p'.[i] <= maxloop tl * Rmax (Rabs xold.[i]) 1). { replace (Rabs p'.[i]) with (Rabs p'.[i] / Rmax (Rabs xold.[i]) 1 * Rmax (Rabs xold.[i]) 1) by (field; lra). apply Rmult_le_compat_r; lra. }
      assert (B3 : lam * maxloop tl < TOLX). { apply Rmult_lt_reg_r with (/ maxloop tl); [now apply Rinv_0_lt_compat|]. rewrite Rmult_assoc, Rinv_r by lra. unfold Rdiv in Pr. lra. }
      eapply Rle_lt_trans; [apply Rmult_le_compat_l; [lra|exact B2]|]. rewrite <- Rmult_assoc. apply Rmult_lt_compat_r; lra.
    + destruct Pr as (-> & Pr & _). split; auto. rewrite (fmin_energy n F HF) in Pr by auto. replace (ALPHA * (lam * c) * s0) with (ALPHA * lam * (c * s0)) by ring. exact Pr.
Qed.
(** a zero direction: the search gives up at once *)
Lemma linesrch_zero xold fold g p stpmax fuel : List.length xold = n -> List.length p = n -> 0 < stpmax -> (forall i, (i < n)%nat -> p.[i] = 0) -> (0 < fuel)%nat ->
  linesrch F xold fold g p stpmax fuel = Ok (xold, energy n F xold, F xold, true).
Proof.
  intros Lx Lp Hst Z Hf. unfold linesrch. assert (S0 : sumsq p = 0). { rewrite (sumsq_Sig p n) by auto. apply Sig_zero. intros i Hi. rewrite Z by auto. ring. }
  rewrite S0, sqrt_0. destruct (Rlt_dec stpmax 0); [lra|]. cbv zeta.
  set (tl := zip _ p xold). assert (T : maxloop tl = 0). { destruct (maxloop_in tl) as [|I]; auto. destruct (In_nth _ _ 0 I) as (i & Hi & <-). assert (Ltl : List.length tl = n) by (now apply zip_length). unfold tl. rewrite (nth_zip _ p xold n) by (auto; lia). rewrite Z by lia. rewrite Rabs_R0. unfold Rdiv. ring. }
  rewrite T. destruct (Req_EM_T 0 0) as [_|]; [|lra]. destruct fuel as [|fuel]; [lia|]. cbn [ls_loop].
  assert (E : zip (fun xo pi => xo + 1 * pi) xold p = xold). { apply list_eq_R; rewrite (zip_length _ xold p n) by auto; [now symmetry|]. intros i Hi. rewrite (nth_zip _ xold p n) by auto. rewrite Z by auto. ring. }
  rewrite E, (fmin_energy n F HF) by auto. reflexivity.
Qed.
(** *** one Newton direction *)
Lemma newton_slope x J p g : List.length (F x) = n -> List.length J = (n * n)%nat -> (forall i, (i < n)%nat -> times n J p i = - Fi F x i) -> (forall i, (i < n)%nat -> g.[i] = grad n F x J i) ->
  Sig n (fun i => g.[i] * p.[i]) = - 2 * energy n F x.
Proof.
  intros LF LJ Hp Hg. rewrite (Sig_ext n _ (fun i => Sig n (fun j => ent n J j i * Fi F x j * p.[i]))).
  2:{ intros i Hi. rewrite Hg by auto. unfold grad. now rewrite Sig_scal_r. }
  rewrite Sig_swap. rewrite (Sig_ext n _ (fun j => - 1 * Fi F x j ^ 2)). { rewrite Sig_scal. unfold energy. field. }
  intros j Hj. transitivity (Fi F x j * times n J p j). { unfold times. rewrite <- Sig_scal. apply Sig_ext. intros i Hi. ring. } rewrite Hp by auto. ring.
Qed.
End NL.
