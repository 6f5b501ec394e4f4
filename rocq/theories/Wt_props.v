(** C55: WTiterator never increases the residual and reports it truthfully. *)
From Verif Require Import Base Loops Rsum Sparse_model Sparse_spec Sparse_proofs Sparse_props Solvers_model Solvers_spec Solvers_proofs.
Local Open Scope R_scope.

Section C55.
Variables (n : nat) (A : list (list (nat * R))) (b : list R).
Hypothesis SQ : square n A.
Hypothesis LB : List.length b = n.
(** A x - b *)
Definition wres (x : list R) (i : nat) : R := Sig n (fun j => elem A i j * x.[j]) - b.[i].
(** minus the gradient of |A x - b|^2/2 *)
Definition descent (x : list R) (j : nat) : R := - Sig n (fun i => elem A i j * wres x i).

Lemma direction_ok x mm f nr : List.length x = n -> List.length mm = n -> List.length f = n ->
  exists dx, WT_direction A x b mm f nr = Ok dx /\ List.length dx = n /\
    ((Sig n (fun j => descent x j * descent x j) = 0 /\ forall j, (j < n)%nat -> dx.[j] = 0) \/
     (Sig n (fun j => descent x j * descent x j) > 0 /\ forall j, (j < n)%nat -> dx.[j] = nr / sqrt (Sig n (fun j => descent x j * descent x j)) * descent x j)).
Proof.
  intros LX LM LF. destruct SQ as (LA & HP & ND). unfold WT_direction.
  destruct (C27_lines A x mm) as (m1 & E1 & L1 & H1 & _); [lia|now rewrite LX|]. rewrite E1. cbn [rbind].
  destruct (C27_transposed A m1 f) as (f1 & _ & E2 & L2 & H2 & _); [lia|lia|now rewrite LF|]. rewrite E2. cbn [rbind].
  destruct (C27_transposed A b m1) as (m2 & _ & E3 & L3 & H3 & _); [lia|lia|now rewrite L1, LM|]. rewrite E3. cbn [rbind].
  set (dx := zip _ f1 m2). assert (LD : List.length dx = n) by (apply zip_length; congruence).
  assert (HD : forall j, (j < n)%nat -> dx.[j] = descent x j).
  { intros j Hj. unfold dx. rewrite (nth_zip _ _ _ n) by congruence. rewrite H2, H3 by lia. rewrite LA. unfold descent, wres.
    rewrite <- Sig_opp. rewrite <- Sig_opp, <- Sig_plus. apply Sig_ext. intros i Hi. rewrite H1 by lia. rewrite LX. lra. }
  assert (SD : scalarproduct_vectors dx dx = Sig n (fun j => descent x j * descent x j)).
  { rewrite (scalar_Sig _ _ n) by auto. apply Sig_ext. intros j Hj. now rewrite HD. }
  assert (NN : 0 <= Sig n (fun j => descent x j * descent x j)) by (apply Sig_nonneg; intros; nra).
  rewrite SD. eexists. split; [reflexivity|]. set (Q := Sig n (fun j => descent x j * descent x j)) in *. destruct (Req_EM_T (sqrt Q) 0) as [Z|Z].
  - apply sqrt_eq_0 in Z; auto. split; auto. left. split; auto. intros j Hj. rewrite HD by auto.
    assert (descent x j * descent x j <= 0); [|nra]. rewrite <- Z. unfold Q. rewrite <- (Sig_delta n j (fun j => descent x j * descent x j)) by auto.
    apply Sig_le. intros i _. destruct (Nat.eqb i j); nra.
  - split; [now rewrite map_length|]. right. split. { destruct NN as [NN|NN]; auto. exfalso. apply Z. rewrite <- NN. apply sqrt_0. }
    intros j Hj. rewrite (nth_indep _ 0 ((fun d => nr * d / sqrt Q) 0)) by (rewrite map_length; lia). rewrite (map_nth (fun d => nr * d / sqrt Q)), HD by auto. field. auto.
Qed.
Lemma residual_wres x f : List.length x = n -> List.length f = n ->
  exists f', residual A x b f = Ok f' /\ List.length f' = n /\ sqrt (scalarproduct_vectors f' f' / INR (List.length A)) = rms n (wres x).
Proof.
  intros LX LF. destruct (residual_ok n A x b f SQ LX LB LF) as (f' & E & L & H). exists f'. split; auto. split; auto.
  destruct SQ as (LA & _). rewrite LA. rewrite (scalar_Sig _ _ n) by auto. unfold rms. do 2 f_equal. apply Sig_ext. intros i Hi. now rewrite H.
Qed.

(** along dx the residual first decreases *)
Lemma descends x dx nr : List.length x = n -> List.length dx = n -> nr = rms n (wres x) ->
  ((Sig n (fun j => descent x j * descent x j) = 0 /\ forall j, (j < n)%nat -> dx.[j] = 0) \/
   (Sig n (fun j => descent x j * descent x j) > 0 /\ forall j, (j < n)%nat -> dx.[j] = nr / sqrt (Sig n (fun j => descent x j * descent x j)) * descent x j)) ->
  exists s0, 0 < s0 /\ forall s y, 0 < s <= s0 -> List.length y = n -> (forall i, (i < n)%nat -> y.[i] = x.[i] + s * dx.[i]) -> rms n (wres y) <= nr.
Proof.
  intros LX LD HN HD. set (d := fun i => Sig n (fun j => elem A i j * dx.[j])). set (rd := Sig n (fun i => wres x i * d i)). set (dd := Sig n (fun i => d i * d i)).
  assert (DD : 0 <= dd) by (apply Sig_nonneg; intros; nra).
  assert (EXP : forall s y, List.length y = n -> (forall i, (i < n)%nat -> y.[i] = x.[i] + s * dx.[i]) ->
     Sig n (fun i => wres y i * wres y i) = Sig n (fun i => wres x i * wres x i) + s * (2 * rd + s * dd)).
  { intros s y LY HY. unfold rd, dd. replace (s * (2 * Sig n (fun i => wres x i * d i) + s * Sig n (fun i => d i * d i)))
      with (2 * s * Sig n (fun i => wres x i * d i) + s * s * Sig n (fun i => d i * d i)) by ring.
    rewrite <- !Sig_scal, <- !Sig_plus. apply Sig_ext. intros i Hi.
    assert (W : wres y i = wres x i + s * d i). { unfold wres, d. rewrite <- Sig_scal.
      replace (Sig n (fun j => elem A i j * y.[j])) with (Sig n (fun j => elem A i j * x.[j]) + Sig n (fun j => s * (elem A i j * dx.[j]))); [lra|].
      rewrite <- Sig_plus. apply Sig_ext. intros j Hj. rewrite HY by auto. lra. }
    rewrite W. ring. }
  assert (RD : rd = - Sig n (fun j => descent x j * dx.[j])).
  { unfold rd, d, descent. rewrite <- Sig_opp. rewrite (Sig_ext n _ (fun i => Sig n (fun j => wres x i * (elem A i j * dx.[j])))) by (intros; now rewrite Sig_scal).
    rewrite Sig_swap. apply Sig_ext. intros j Hj. rewrite <- Sig_opp, <- Sig_scal_r, <- Sig_opp. apply Sig_ext. intros; lra. }
  assert (GOAL : exists s0, 0 < s0 /\ forall s, 0 < s <= s0 -> s * (2 * rd + s * dd) <= 0).
  { destruct HD as [[Z HZ]|[PG HP]].
    - exists 1. split; [lra|]. intros s Hs. assert (Z1 : rd = 0). { rewrite RD, Sig_zero; [lra|]. intros j Hj. rewrite HZ by auto. lra. }
      assert (Z2 : dd = 0). { unfold dd. apply Sig_zero. intros i Hi. unfold d. rewrite Sig_zero; [lra|]. intros j Hj. rewrite HZ by auto. lra. }
      rewrite Z1, Z2. lra.
    - set (Q := Sig n (fun j => descent x j * descent x j)) in *. assert (SQ0 : 0 < sqrt Q) by now apply sqrt_lt_R0.
      assert (N0 : 0 <= nr) by (rewrite HN; apply sqrt_pos).
      assert (R1 : rd = - (nr / sqrt Q * Q)).
      { rewrite RD. f_equal. unfold Q at 2. rewrite <- Sig_scal. apply Sig_ext. intros j Hj. rewrite HP by auto. lra. }
      destruct N0 as [N0|N0].
      + assert (RN : rd < 0). { rewrite R1. assert (0 < nr / sqrt Q * Q); [|lra]. apply Rmult_lt_0_compat; auto. now apply Rdiv_lt_0_compat. }
        exists (-2 * rd / (dd + 1)). split; [apply Rdiv_lt_0_compat; lra|]. intros s [S1 S2].
        assert (s * (dd + 1) <= -2 * rd). { apply (Rmult_le_compat_r (dd + 1)) in S2; [|lra]. replace (-2 * rd / (dd + 1) * (dd + 1)) with (-2 * rd) in S2 by (field; lra). lra. }
        assert (2 * rd + s * dd <= 0) by lra. nra.
      + exists 1. split; [lra|]. intros s Hs. assert (Z1 : rd = 0) by (rewrite R1, <- N0; unfold Rdiv; lra).
        assert (Z2 : dd = 0). { unfold dd. apply Sig_zero. intros i Hi. unfold d. rewrite Sig_zero; [lra|]. intros j Hj. rewrite HP by auto. rewrite <- N0. unfold Rdiv. lra. }
        rewrite Z1, Z2. lra. }
  destruct GOAL as (s0 & P0 & HS). exists s0. split; auto. intros s y Hs LY HY. rewrite HN. unfold rms. apply sqrt_le_1_alt.
  rewrite (EXP s y LY HY). specialize (HS s Hs). unfold Rdiv. destruct n as [|m]. { cbn. lra. }
  apply Rmult_le_compat_r; [|lra]. left. apply Rinv_0_lt_compat. apply lt_0_INR. lia.
Qed.
(** hence the search for a step that does not increase the residual ends *)
Lemma search_ok dx nr s0 x : List.length x = n -> List.length dx = n -> 0 < s0 ->
  (forall s y, 0 < s <= s0 -> List.length y = n -> (forall i, (i < n)%nat -> y.[i] = x.[i] + s * dx.[i]) -> rms n (wres y) <= nr) ->
  forall k s f, 0 < s -> s * (1 / 10) ^ k <= s0 -> List.length f = n ->
  exists x' nr', (forall m, (k < m)%nat -> WT_search A b dx nr m s x f = Ok (x', nr')) /\ List.length x' = n /\ nr' = rms n (wres x') /\ nr' <= nr.
Proof.
  intros LX LD P0 HS k. induction k as [|k IH]; intros s f PS HK LF.
  - set (x1 := zip (fun x dx => x + s * dx) x dx). assert (L1 : List.length x1 = n) by now apply zip_length.
    destruct (residual_wres x1 f L1 LF) as (f1 & E & LF1 & HR). exists x1. eexists. split.
    + intros [|m] Hm; [lia|]. cbn [WT_search]. fold x1. rewrite E. cbn [rbind]. rewrite HR. destruct (Rle_dec _ nr) as [C|C]; [reflexivity|].
      exfalso. apply C. apply (HS s); auto. { cbn in HK. lra. } intros i Hi. unfold x1. now rewrite (nth_zip _ _ _ n).
    + split; auto. split; auto. apply (HS s); auto. { cbn in HK. lra. } intros i Hi. unfold x1. now rewrite (nth_zip _ _ _ n).
  - set (x1 := zip (fun x dx => x + s * dx) x dx). assert (L1 : List.length x1 = n) by now apply zip_length.
    destruct (residual_wres x1 f L1 LF) as (f1 & E & LF1 & HR). destruct (Rle_dec (rms n (wres x1)) nr) as [C|C].
    + exists x1. eexists. split; [|split; [exact L1|split; [reflexivity|exact C]]]. intros [|m] Hm; [lia|]. cbn [WT_search]. fold x1. rewrite E. cbn [rbind]. rewrite HR.
      destruct (Rle_dec _ nr); [reflexivity|contradiction].
    + destruct (IH (s * (1 / 10)) f1) as (x' & nr' & H1 & H2); auto. { lra. } { rewrite <- tech_pow_Rmult in HK. lra. }
      exists x', nr'. split; auto. intros [|m] Hm; [lia|]. cbn [WT_search]. fold x1. rewrite E. cbn [rbind]. rewrite HR. destruct (Rle_dec _ nr); [contradiction|].
      replace (zip (fun x dx => x - s * dx) x1 dx) with x. { apply H1. lia. }
      apply (list_eq_nth 0). { rewrite (zip_length _ _ _ n); auto. } rewrite LX. intros i Hi. rewrite (nth_zip _ _ _ n) by auto. unfold x1. rewrite (nth_zip _ _ _ n) by auto. lra.
Qed.
Lemma small_power s0 : 0 < s0 -> exists k, 1 * (1 / 10) ^ k <= s0.
Proof.
  intros P. destruct (pow_lt_1_zero (1 / 10) ltac:(rewrite Rabs_right; lra) s0 P) as (k & Hk). exists k. specialize (Hk k ltac:(lia)).
  eapply Rle_trans; [|left; exact Hk]. rewrite Rmult_1_l. apply Rle_abs.
Qed.
Lemma loop_ok tol : forall fuel it x f mm nr, List.length x = n -> List.length f = n -> List.length mm = n -> nr = rms n (wres x) -> nr > tol ->
  exists k0 it' x' nr', (forall k, (k0 <= k)%nat -> WT_loop A b tol k fuel it x f mm nr = Ok (it', x', nr')) /\ List.length x' = n /\ nr' = rms n (wres x') /\ nr' <= nr /\
    (nr' <= tol <-> (it' < it + Z.of_nat fuel)%Z) /\ (it <= it' <= it + Z.of_nat fuel)%Z.
Proof.
  induction fuel as [|fuel IH]; intros it x f mm nr LX LF LM HN HT.
  - exists 0%nat, it, x, nr. split; [reflexivity|]. split; auto. split; auto. split; [lra|]. split; [|lia]. split; [lra|lia].
  - destruct (direction_ok x mm f nr LX LM LF) as (dx & ED & LD & HD). destruct (descends x dx nr LX LD HN HD) as (s0 & P0 & HS).
    destruct (small_power s0 P0) as (k1 & HK). destruct (search_ok dx nr s0 x LX LD P0 HS k1 1 f ltac:(lra) HK LF) as (x1 & nr1 & H1 & L1 & N1 & LE1).
    destruct (Rle_dec nr1 tol) as [C|C].
    + exists (S k1), it, x1, nr1. split.
      * intros k Hk. cbn [WT_loop]. rewrite ED. cbn [rbind]. rewrite H1 by lia. cbn [rbind]. destruct (Rle_dec nr1 tol); [auto|contradiction].
      * split; auto. split; auto. split; auto. split; [|lia]. split; [lia|auto].
    + destruct (IH (it + 1)%Z x1 f mm nr1 L1 LF LM N1 ltac:(lra)) as (k2 & it' & x' & nr' & H2 & L2 & N2 & LE2 & I2 & B2).
      exists (S k1 + k2)%nat, it', x', nr'. split.
      * intros k Hk. cbn [WT_loop]. rewrite ED. cbn [rbind]. rewrite H1 by lia. cbn [rbind]. destruct (Rle_dec nr1 tol); [contradiction|]. apply H2. lia.
      * split; auto. split; auto. split; [lra|]. split; [|lia]. rewrite I2. lia.
Qed.

(** In exact arithmetic WTiterator ends after finitely many trials (k bounds them), the returned residual
    is the root mean square of A x - b for the returned x, is not larger than at the start, and the return
    value is at most itmax exactly if the residual is within the tolerance. *)
Theorem C55_WTiterator x itmax tol : List.length x = n -> (0 <= itmax)%Z ->
  exists k0 ret x' normres, (forall k, (k0 <= k)%nat -> WTiterator A x b itmax tol k = Ok (ret, x', normres)) /\ List.length x' = n /\
    normres = rms n (fun i => Sig n (fun j => elem A i j * x'.[j]) - b.[i]) /\ normres <= rms n (fun i => Sig n (fun j => elem A i j * x.[j]) - b.[i]) /\
    (normres <= tol <-> (ret <= itmax)%Z) /\ (0 <= ret <= itmax + 1)%Z.
Proof.
  intros LX IM. unfold WTiterator. pose proof SQ as (LA & _).
  destruct (residual_wres x (repeat 0 (List.length A)) LX ltac:(now rewrite repeat_length)) as (f & E & LF & HR).
  destruct (Rle_dec (rms n (wres x)) tol) as [C|C].
  - exists 0%nat, 0%Z, x, (rms n (wres x)). split. { intros k _. rewrite E. cbn [rbind]. rewrite HR. destruct (Rle_dec _ tol); [auto|contradiction]. }
    split; auto. split; auto. split; [unfold wres; lra|]. split; [|lia]. split; [lia|auto].
  - destruct (loop_ok tol (Z.to_nat itmax) 1%Z x f (repeat 0 (List.length A)) _ LX LF ltac:(now rewrite repeat_length) eq_refl ltac:(lra)) as (k0 & it' & x' & nr' & H & L' & N' & LE & I & B).
    rewrite Z2Nat.id in * by auto. exists k0, it', x', nr'. split. { intros k Hk. rewrite E. cbn [rbind]. rewrite HR. destruct (Rle_dec _ tol); [contradiction|]. auto. }
    split; auto. split; auto. split; auto. split; [|lia]. rewrite I. lia.
Qed.
(** every step goes along the negative gradient of |A x - b|^2 *)
Theorem C55_direction x mm f normres : List.length x = n -> List.length mm = n -> List.length f = n ->
  exists dx c, WT_direction A x b mm f normres = Ok dx /\ List.length dx = n /\ (0 <= normres -> 0 <= c) /\
    forall j, (j < n)%nat -> dx.[j] = c * - Sig n (fun i => elem A i j * (Sig n (fun k => elem A i k * x.[k]) - b.[i])).
Proof.
  intros LX LM LF. destruct (direction_ok x mm f normres LX LM LF) as (dx & E & L & [[Z H]|[PP H]]).
  - exists dx, 0. split; auto. split; auto. split; [lra|]. intros j Hj. rewrite H by auto. lra.
  - exists dx, (normres / sqrt (Sig n (fun j => descent x j * descent x j))). split; auto. split; auto. split; [|intros j Hj; now rewrite H].
    intros N0. apply Rmult_le_pos; auto. left. apply Rinv_0_lt_compat. now apply sqrt_lt_R0.
Qed.
End C55.
Print Assumptions C55_WTiterator. Print Assumptions C55_direction.

Example ex_square : square 2 [[(0%nat, 2); (1%nat, 1)]; [(1%nat, 4)]].
Proof. split; [reflexivity|]. split; [repeat constructor|]. repeat constructor; cbn; intuition; discriminate. Qed.
