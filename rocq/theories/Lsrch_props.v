(** Property C61: newton_linesearch. *)
From Verif Require Import Rutil Rsum Loops Sparse_model Arrays Solvers_model Solvers_proofs Mat_proofs Lu_model Lu_spec Lu_proofs Lu_props Lsrch_model Lsrch_spec Lsrch_proofs Lsrch_proofs2 Lsrch_proofs3.
Local Open Scope R_scope.
(** what malloc left in the work arrays: anything of the right size *)
Definition junk_ok (n : nat) (jk : Z -> junk) : Prop := forall z, List.length (j_fjac (jk z)) = (n * n)%nat /\ List.length (j_g (jk z)) = n /\ List.length (j_idx (jk z)) = n /\ List.length (j_vscal (jk z)) = n.
(** the ways in which newton_linesearch returns after its first test, started with the energy E0: r, x', chk are the return value, x and *check *)
Definition returns (n : nat) (F : list R -> list R) (tolf : R) (itmax : Z) (E0 : R) (r : Z) (x' : list R) (chk : bool) : Prop :=
  ((1 <= r <= itmax)%Z /\ chk = false /\ exists y, List.length y = n /\ near n x' y /\ small n F tolf y) \/
  ((1 <= r <= itmax)%Z /\ exists J y, fd_matrix n F x' J /\ List.length y = n /\ near n x' y /\ ~ small n F tolf y /\
     (chk = true <-> forall i, (i < n)%nat -> Rabs (grad n F x' J i) * Rmax (Rabs x'.[i]) 1 < / 10 ^ 13 * Rmax (energy n F y) (INR n / 2))) \/
  ((1 <= r <= itmax)%Z /\ chk = false /\ energy n F x' < E0 /\ ~ small n F tolf x' /\ exists xo, List.length xo = n /\ near n x' xo /\ energy n F x' < energy n F xo <= E0) \/
  ((r = - itmax - 2)%Z /\ ((0 < itmax)%Z -> chk = false /\ energy n F x' < E0 /\ ~ small n F tolf x')).
Lemma maxabs_small n F y tolf : (0 < n)%nat -> List.length (F y) = n -> (maxloop (map Rabs (F y)) < tolf <-> small n F tolf y).
Proof.
  intros Hn L. rewrite (maxloop_lt _ n (fun i => Rabs (Fi F y i))). 2:{ now rewrite map_length. } 2:{ intros i Hi. now rewrite (nth_map0 _ _ n). }
  unfold small. split; [tauto|]. intros H. split; auto. specialize (H 0%nat Hn). pose proof (Rabs_pos (Fi F y 0)). lra.
Qed.
Lemma near_refl n x : near n x x.
Proof. intros i Hi. rewrite Rminus_diag_eq, Rabs_R0 by auto. apply Rmult_lt_0_compat; [apply TOLX_pos|apply Rmax1_pos]. Qed.
Lemma nl_loop_ok n F jk stpmax tolf E0 itmax : (0 < n)%nat -> (forall x, List.length x = n -> List.length (F x) = n) -> junk_ok n jk -> 0 < stpmax ->
  (forall y J, List.length y = n -> energy n F y <= E0 -> fd_matrix n F y J -> invertible n J) ->
  forall todo its x chk, List.length x = n -> energy n F x <= E0 -> (Z.of_nat todo + its = itmax + 1)%Z -> (1 <= its)%Z ->
  ((1 < its)%Z -> chk = false /\ energy n F x < E0 /\ ~ small n F tolf x) ->
  exists N r x' c, (forall fuel, (N <= fuel)%nat -> nl_loop n F jk stpmax tolf fuel todo its x (energy n F x) (F x) chk = Ok (r, x', c)) /\ List.length x' = n /\ energy n F x' <= energy n F x /\ returns n F tolf itmax E0 r x' c.
Proof.
  intros Hn HF Hjk Hst Hinv. induction todo as [|todo IH]; intros its x chk Lx HE Hits Hi1 Hch.
  { exists 0%nat, (- its - 1)%Z, x, chk. split; [reflexivity|]. split; auto. split; [lra|]. right. right. right. split; [lia|]. intros; apply Hch; lia. }
  destruct (Hjk its) as (J1 & J2 & J3 & J4).
  destruct (fd_jacobian_ok n F HF x (j_fjac (jk its)) Lx J1) as (J & EJ & MJ). assert (LJ := proj1 MJ).
  destruct (gradient_ok n F HF J x (j_g (jk its)) LJ Lx J2) as (g & Eg & Lg & Vg).
  destruct (C45_solve n J (j_vscal (jk its)) (j_idx (jk its)) 1) as (lu & pi & par & El & Sol). { repeat split; auto. } { now apply (Hinv x). }
  destruct (Sol (map Ropp (F x))) as (p & Ep & Lp & Vp). { rewrite map_length; auto. }
  assert (Vp' : forall i, (i < n)%nat -> times n J p i = - Fi F x i). { intros i Hi. rewrite Vp by auto. now rewrite (nth_map0 _ _ n) by auto. }
  assert (St : forall fuel, nl_loop n F jk stpmax tolf fuel (S todo) its x (energy n F x) (F x) chk =
    (do q <- linesrch F x (energy n F x) g p stpmax fuel;
     let '(x1, f, fvec, check) := q in
     if Rlt_dec (maxloop (map Rabs fvec)) tolf then Ok (its, x1, false)
     else if check then Ok (its, x1, if Rlt_dec (maxloop (zip (fun gi xi => Rabs gi * Rmax (Rabs xi) 1 / Rmax f (0.5 * INR n)) g x1)) TOLMIN then true else false)
     else if Rlt_dec (maxloop (zip (fun xi xo => Rabs (xi - xo) / Rmax (Rabs xi) 1) x1 x)) TOLX then Ok (its, x1, check)
     else nl_loop n F jk stpmax tolf fuel todo (its + 1) x1 f fvec check)).
  { intros fuel. cbn [nl_loop]. rewrite EJ. cbn [rbind]. rewrite Eg. cbn [rbind]. rewrite El. cbn [rbind]. rewrite Z.eqb_refl, Ep. cbn [rbind]. reflexivity. }
  (* the failed line search *)
  assert (Fail : forall y, List.length y = n -> near n x y -> ~ small n F tolf y ->
    returns n F tolf itmax E0 its x (if Rlt_dec (maxloop (zip (fun gi xi => Rabs gi * Rmax (Rabs xi) 1 / Rmax (energy n F y) (0.5 * INR n)) g x)) TOLMIN then true else false)).
  { intros y Ly Ny Ns. right. left. split; [lia|]. exists J, y. split; auto. split; auto. split; auto. split; auto.
    set (d := Rmax (energy n F y) (0.5 * INR n)). assert (Hd : 0 < d). { unfold d. eapply Rlt_le_trans; [|apply Rmax_r]. assert (0 < INR n) by (apply lt_0_INR; lia). lra. }
    assert (T : maxloop (zip (fun gi xi => Rabs gi * Rmax (Rabs xi) 1 / d) g x) < TOLMIN <-> 0 < TOLMIN /\ forall i, (i < n)%nat -> Rabs (grad n F x J i) * Rmax (Rabs x.[i]) 1 / d < TOLMIN).
    { apply maxloop_lt; [now apply zip_length|]. intros i Hi. rewrite (nth_zip _ g x n) by auto. now rewrite Vg. }
    replace (Rmax (energy n F y) (INR n / 2)) with d by (unfold d; f_equal; lra). fold TOLMIN. assert (HT : 0 < TOLMIN) by (apply Rinv_0_lt_compat, pow_lt; lra).
    assert (DD : forall v, v / d < TOLMIN <-> v < TOLMIN * d). { intros v. split; intros Q. - apply Rmult_lt_reg_r with (/ d); [now apply Rinv_0_lt_compat|]. rewrite Rmult_assoc, Rinv_r, Rmult_1_r by lra. exact Q. - apply Rmult_lt_reg_r with d; auto. unfold Rdiv. rewrite Rmult_assoc, Rinv_l, Rmult_1_r by lra. exact Q. }
    destruct (Rlt_dec _ TOLMIN) as [Q|Q]. - split; auto. intros _ i Hi. apply DD. now apply T. - split; [discriminate|]. intros H. exfalso. apply Q, T. split; auto. intros i Hi. apply DD. now apply H. }
  assert (Conv : forall y, List.length y = n -> near n x y -> small n F tolf y -> returns n F tolf itmax E0 its x false).
  { intros y Ly Ny Sy. left. split; [lia|]. split; auto. exists y. auto. }
  assert (Es := newton_slope n F x J p g (HF x Lx) LJ Vp' Vg). pose proof (energy_nonneg n F x) as E0p.
  destruct (Req_dec (energy n F x) 0) as [Z|NZ].
  - (* F x = 0: p = 0 *)
    assert (Fz : forall i, (i < n)%nat -> Fi F x i = 0). { assert (SZ : Sig n (fun i => Fi F x i ^ 2) = 0) by (unfold energy in Z; lra). clear - SZ. induction n as [|m IH]; [intros; lia|]. rewrite Sig_S in SZ. pose proof (Sig_sq_nonneg m (Fi F x)). pose proof (pow2_ge_0 (Fi F x m)).
      intros i Hi. destruct (Nat.eq_dec i m) as [->|]. - assert (Q : Fi F x m ^ 2 = 0) by lra. destruct (Req_dec (Fi F x m) 0); auto. exfalso. revert Q. now apply pow_nonzero. - apply IH; [lra|lia]. }
    assert (Pz : forall i, (i < n)%nat -> p.[i] = 0). { destruct (Hinv x J Lx HE MJ) as (B & HB). intros i Hi. transitivity (Sig n (fun k => B i k * times n J p k)).
      - unfold times. rewrite (Sig_ext n (fun k => B i k * Sig n (fun j => ent n J k j * p.[j])) (fun k => Sig n (fun j => B i k * ent n J k j * p.[j]))). 2:{ intros k Hk. rewrite <- Sig_scal. apply Sig_ext. intros j Hj. ring. }
        rewrite Sig_swap. rewrite (Sig_ext n _ (fun j => if (i =? j)%nat then p.[j] else 0)). 2:{ intros j Hj. rewrite Sig_scal_r. destruct (HB i j Hi Hj) as [_ ->]. destruct (i =? j)%nat; ring. }
        rewrite (Sig_single n i); [now rewrite Nat.eqb_refl|auto|]. intros j Hj Hne. destruct (Nat.eqb_spec i j); [congruence|reflexivity].
      - apply Sig_zero. intros k Hk. rewrite Vp', Fz by auto. ring. }
    exists 1%nat. destruct (Rlt_dec (maxloop (map Rabs (F x))) tolf) as [Q|Q].
    + exists its, x, false. split. { intros fuel Hf. rewrite St, (linesrch_zero n F HF) by (auto; lia). cbn [rbind]. destruct (Rlt_dec _ tolf); [reflexivity|contradiction]. } split; auto. split; [lra|]. apply (Conv x); auto using near_refl. apply (maxabs_small n F); auto.
    + exists its, x. eexists. split. { intros fuel Hf. rewrite St, (linesrch_zero n F HF) by (auto; lia). cbn [rbind]. destruct (Rlt_dec _ tolf); [contradiction|]. reflexivity. } split; auto. split; [lra|]. apply Fail; auto using near_refl. intros Q2. apply Q. apply (maxabs_small n F); auto.
  - destruct (linesrch_descent n F HF x (energy n F x) g p stpmax Lx Lg Lp Hst) as (N & [[[x1 f] fv] check] & HN & y & mu & Hmu & Ly & Vy & -> & -> & R). { rewrite Es. lra. }
    destruct (Rlt_dec (maxloop (map Rabs (F y))) tolf) as [Q|Q].
    + exists N, its, x1, false. split. { intros fuel Hf. rewrite St, HN by lia. cbn [rbind]. destruct (Rlt_dec _ tolf); [reflexivity|contradiction]. } apply (maxabs_small n F) in Q; auto. destruct check.
      * destruct R as [-> R]. split; auto. split; [lra|]. apply (Conv y); auto.
      * destruct R as [-> R]. split; auto. split. { rewrite Es in R. assert (0 < ALPHA) by (rewrite ALPHA_val; lra). assert (0 < ALPHA * mu) by nra. nra. } left. split; [lia|]. split; auto. exists y. split; auto. split; auto using near_refl.
    + assert (NS : ~ small n F tolf y). { intros Q2. apply Q. apply (maxabs_small n F); auto. } destruct check.
      * destruct R as [-> R]. exists N, its, x. eexists. split. { intros fuel Hf. rewrite St, HN by lia. cbn [rbind]. destruct (Rlt_dec _ tolf); [contradiction|]. reflexivity. } split; auto. split; [lra|]. now apply Fail.
      * destruct R as [-> R]. assert (Dec : energy n F y < energy n F x). { rewrite Es in R. assert (0 < ALPHA) by (rewrite ALPHA_val; lra). assert (0 < ALPHA * mu) by nra. nra. }
        set (tl := zip (fun xi xo => Rabs (xi - xo) / Rmax (Rabs xi) 1) y x) in St. assert (Etl : zip (fun xi xo => Rabs (xi - xo) / Rmax (Rabs xi) 1) y x = tl) by reflexivity. destruct (Rlt_dec (maxloop tl) TOLX) as [T|T].
        -- exists N, its, y, false. split. { intros fuel Hf. rewrite St, HN by lia. cbn [rbind]. destruct (Rlt_dec _ tolf); [contradiction|]. rewrite Etl. destruct (Rlt_dec _ TOLX); [reflexivity|contradiction]. } split; auto. split; [lra|]. right. right. left. split; [lia|]. split; auto. split; [lra|]. split; auto. exists x. split; auto. split; [|lra].
           intros i Hi. assert (Q3 : Rabs (y.[i] - x.[i]) / Rmax (Rabs y.[i]) 1 < TOLX). { rewrite <- (nth_zip (fun xi xo => Rabs (xi - xo) / Rmax (Rabs xi) 1) y x n) by auto. eapply Rle_lt_trans; [|exact T]. apply maxloop_ge, nth_In. unfold tl. rewrite (zip_length _ y x n); auto. }
           pose proof (Rmax1_pos (Rabs y.[i])) as M. rewrite Rabs_minus_sym. fold TOLX. apply Rmult_lt_reg_r with (/ Rmax (Rabs y.[i]) 1); [now apply Rinv_0_lt_compat|]. rewrite Rmult_assoc, Rinv_r, Rmult_1_r by lra. exact Q3.
        -- destruct (IH (its + 1)%Z y false) as (N2 & r & x' & c & H1 & H2 & H3 & H4); auto; [lra|lia|lia|intros _; split; [auto|split; [lra|auto]]|].
           exists (max N N2), r, x', c. split. { intros fuel Hf. rewrite St, HN by lia. cbn [rbind]. destruct (Rlt_dec _ tolf); [contradiction|]. rewrite Etl. destruct (Rlt_dec _ TOLX); [contradiction|]. apply H1. lia. } split; auto. split; [lra|auto].
Qed.
(** C61 (main part): if the difference-quotient matrices F meets on the way (those at points whose energy is not above the initial one) are invertible, then for every F, starting point,
    itmax and tolerance newton_linesearch terminates without abort(), the energy at the point returned is not above that at the starting point, and what is returned is one of the listed outcomes. *)
Theorem C61_newton n F jk x chk0 itmax tolf : (0 < n)%nat -> (forall x, List.length x = n -> List.length (F x) = n) -> junk_ok n jk -> List.length x = n -> (0 <= itmax)%Z ->
  (forall y J, List.length y = n -> energy n F y <= energy n F x -> fd_matrix n F y J -> invertible n J) ->
  exists N r x' chk, (forall fuel, (N <= fuel)%nat -> newton_linesearch n F jk fuel x chk0 itmax tolf = Ok (r, x', chk)) /\ List.length x' = n /\ energy n F x' <= energy n F x /\
    ((r = 0%Z /\ x' = x /\ chk = false /\ small n F (tolf / 100) x) \/ (~ small n F (tolf / 100) x /\ returns n F tolf itmax (energy n F x) r x' chk)).
Proof.
  intros Hn HF Hjk Lx Hit Hinv. unfold newton_linesearch. replace (0.01 * tolf) with (tolf / 100) by lra.
  destruct (Rlt_dec (maxloop (map Rabs (F x))) (tolf / 100)) as [Q|Q].
  - exists 0%nat, 0%Z, x, false. split; auto. split; auto. split; [lra|]. left. split; auto. split; auto. split; auto. apply (maxabs_small n F); auto.
  - assert (Hst : 0 < STPMX * Rmax (sqrt (sumsq x)) (INR n)). { unfold STPMX. apply Rmult_lt_0_compat; [lra|]. eapply Rlt_le_trans; [|apply Rmax_r]. apply lt_0_INR; lia. }
    destruct (nl_loop_ok n F jk _ tolf (energy n F x) itmax Hn HF Hjk Hst Hinv (Z.to_nat itmax) 1%Z x chk0) as (N & r & x' & c & H1 & H2 & H3 & H4); auto; [lra|lia|lia|lia|].
    exists N, r, x', c. rewrite (fmin_energy n F HF) by auto. split; auto. split; auto. split; auto. right. split; auto. intros Q2. apply Q. apply (maxabs_small n F); auto.
Qed.
Print Assumptions C61_newton.
(** The matrix newton_linesearch works with is the matrix of difference quotients, whatever malloc left in it. *)
Theorem C61_jacobian n F x df : (forall x, List.length x = n -> List.length (F x) = n) -> List.length x = n -> List.length df = (n * n)%nat ->
  exists J, fd_jacobian n F x (F x) df = Ok J /\ fd_matrix n F x J.
Proof. intros HF Lx Ld. now apply fd_jacobian_ok. Qed.
Print Assumptions C61_jacobian.
(** F is the affine map with matrix A and constant part b *)
Definition affine (n : nat) (F : list R -> list R) (A : list R) (b : nat -> R) : Prop :=
  (forall x, List.length x = n -> List.length (F x) = n) /\ forall x i, List.length x = n -> (i < n)%nat -> Fi F x i = times n A x i + b i.
Lemma affine_shift n F A b x i j h : affine n F A b -> List.length x = n -> (i < n)%nat -> (j < n)%nat -> Fi F (shifted x j h) i = Fi F x i + ent n A i j * h.
Proof.
  intros [_ Af] Lx Hi Hj. assert (Ls : List.length (shifted x j h) = n) by (unfold shifted; now rewrite map_length, seq_length). rewrite !Af by auto. unfold times. rewrite (Sig_ext n (fun c => ent n A i c * (shifted x j h).[c]) (fun c => ent n A i c * x.[c] + if (c =? j)%nat then ent n A i c * h else 0)).
  - rewrite Sig_plus, (Sig_delta n j (fun c => ent n A i c * h)) by auto. ring.
  - intros c Hc. unfold shifted. rewrite (nth_indep _ 0 ((fun i => x.[i] + (if (i =? j)%nat then h else 0)) 0%nat)) by (rewrite map_length, seq_length; lia). rewrite (map_nth (fun i => x.[i] + (if (i =? j)%nat then h else 0))), seq_nth by lia. cbn [Nat.add]. destruct (c =? j)%nat; ring.
Qed.
(** for an affine map the matrix is exact *)
Theorem C61_jacobian_affine n F A b x J : affine n F A b -> List.length x = n -> fd_matrix n F x J -> forall i j, (i < n)%nat -> (j < n)%nat -> ent n J i j = ent n A i j.
Proof.
  intros Af Lx [_ M] i j Hi Hj. destruct (M j Hj) as (k & _ & V & _). rewrite V by auto. unfold fd_quotient. rewrite (affine_shift n F A b) by auto. pose proof (fd_h_pos x.[j] k). field. lra.
Qed.
Print Assumptions C61_jacobian_affine.
Lemma invertible_ext n A B : (forall i j, (i < n)%nat -> (j < n)%nat -> ent n A i j = ent n B i j) -> invertible n A -> invertible n B.
Proof.
  intros H (I & HI). exists I. intros i j Hi Hj. destruct (HI i j Hi Hj) as [H1 H2]. split; [rewrite <- H1|rewrite <- H2]; apply Sig_ext; intros k Hk; rewrite H; auto.
Qed.
(** An affine system with an invertible matrix is solved in one step, if the solution is not further away than the largest step 100 max(|x|,n): the point returned is the solution,
    or the starting point if that is small enough or differs from the solution by less than 1e-14. *)
Theorem C61_affine n F A b jk x chk0 itmax tolf xs : (0 < n)%nat -> affine n F A b -> invertible n A -> junk_ok n jk -> List.length x = n -> (1 <= itmax)%Z -> 0 < tolf ->
  List.length xs = n -> (forall i, (i < n)%nat -> Fi F xs i = 0) -> sqrt (Sig n (fun i => (xs.[i] - x.[i]) ^ 2)) <= 100 * Rmax (sqrt (Sig n (fun i => x.[i] ^ 2))) (INR n) ->
  exists r x', (forall fuel, (1 <= fuel)%nat -> newton_linesearch n F jk fuel x chk0 itmax tolf = Ok (r, x', false)) /\
    ((r = 0%Z /\ x' = x /\ small n F (tolf / 100) x) \/ (r = 1%Z /\ (x' = xs \/ (x' = x /\ near n x xs)))).
Proof.
  intros Hn Af Inv Hjk Lx Hit Ht Lxs Hxs Hfar. assert (HF := proj1 Af). unfold newton_linesearch. replace (0.01 * tolf) with (tolf / 100) by lra.
  destruct (Rlt_dec (maxloop (map Rabs (F x))) (tolf / 100)) as [Q|Q].
  { exists 0%Z, x. split; auto. left. split; auto. split; auto. apply (maxabs_small n F); auto. }
  destruct (Z.to_nat itmax) as [|todo] eqn:Eit; [lia|]. set (stpmax := STPMX * Rmax (sqrt (sumsq x)) (INR n)).
  assert (Estp : stpmax = 100 * Rmax (sqrt (Sig n (fun i => x.[i] ^ 2))) (INR n)) by (unfold stpmax; now rewrite (sumsq_Sig x n)).
  destruct (Hjk 1%Z) as (J1 & J2 & J3 & J4).
  destruct (fd_jacobian_ok n F HF x (j_fjac (jk 1%Z)) Lx J1) as (J & EJ & MJ). assert (LJ := proj1 MJ).
  assert (EA := C61_jacobian_affine n F A b x J Af Lx MJ).
  assert (InvJ : invertible n J). { apply (invertible_ext n A); auto. intros. symmetry. now apply EA. }
  destruct (gradient_ok n F HF J x (j_g (jk 1%Z)) LJ Lx J2) as (g & Eg & Lg & Vg).
  destruct (C45_solve n J (j_vscal (jk 1%Z)) (j_idx (jk 1%Z)) 1) as (lu & pi & par & El & Sol); [repeat split; auto|auto|].
  destruct (Sol (map Ropp (F x))) as (p & Ep & Lp & Vp). { rewrite map_length; auto. }
  assert (Vp' : forall i, (i < n)%nat -> times n J p i = - Fi F x i). { intros i Hi. rewrite Vp by auto. now rewrite (nth_map0 _ _ n) by auto. }
  (* p = xs - x *)
  assert (Pd : forall i, (i < n)%nat -> p.[i] = xs.[i] - x.[i]).
  { destruct InvJ as (B & HB). assert (U : forall (v : nat -> R) i, (i < n)%nat -> v i = Sig n (fun k => B i k * Sig n (fun j => ent n J k j * v j))).
    { intros v i Hi. rewrite (Sig_ext n _ (fun k => Sig n (fun j => B i k * ent n J k j * v j))). 2:{ intros k Hk. rewrite <- Sig_scal. apply Sig_ext. intros j Hj. ring. }
      rewrite Sig_swap. rewrite (Sig_ext n _ (fun j => if (i =? j)%nat then v j else 0)). 2:{ intros j Hj. rewrite Sig_scal_r. destruct (HB i j Hi Hj) as [_ ->]. destruct (i =? j)%nat; ring. }
      rewrite (Sig_single n i); [now rewrite Nat.eqb_refl|auto|]. intros j Hj Hne. destruct (Nat.eqb_spec i j); [congruence|reflexivity]. }
    intros i Hi. rewrite (U (fun i => p.[i]) i Hi), (U (fun i => xs.[i] - x.[i]) i Hi). apply Sig_ext. intros k Hk. f_equal. change (times n J p k = Sig n (fun j => ent n J k j * (xs.[j] - x.[j]))). rewrite Vp' by auto.
    rewrite (Sig_ext n _ (fun j => ent n A k j * xs.[j] - ent n A k j * x.[j])). 2:{ intros j Hj. rewrite EA by auto. ring. } rewrite Sig_minus. destruct Af as [_ Af]. pose proof (Hxs k Hk) as Q1. rewrite Af in Q1 by auto. rewrite Af by auto. unfold times in *. lra. }
  assert (Ept : zip (fun xo pi => xo + 1 * pi) x p = xs). { apply list_eq_R; rewrite (zip_length _ x p n) by auto; [now symmetry|]. intros i Hi. rewrite (nth_zip _ x p n) by auto. rewrite Pd by auto. ring. }
  assert (Es := newton_slope n F x J p g (HF x Lx) LJ Vp' Vg). pose proof (energy_nonneg n F x) as E0p.
  assert (Esum : sqrt (sumsq p) <= stpmax). { rewrite (sumsq_Sig p n), Estp by auto. rewrite (Sig_ext n _ (fun i => (xs.[i] - x.[i]) ^ 2)); auto. intros i Hi. now rewrite Pd. }
  assert (E0 : energy n F xs = 0). { unfold energy. rewrite Sig_zero; [lra|]. intros i Hi. rewrite Hxs by auto. ring. }
  assert (Em : maxloop (map Rabs (F xs)) < tolf). { apply (maxabs_small n F); auto. intros i Hi. rewrite Hxs, Rabs_R0 by auto. lra. }
  set (tl := zip (fun pi xo => Rabs pi / Rmax (Rabs xo) 1) p x).
  set (lm := if Req_EM_T (maxloop tl) 0 then None else Some (TOLX / maxloop tl)).
  set (giveup := match lm with None => true | Some l => if Rlt_dec 1 l then true else false end).
  exists 1%Z, (if giveup then x else xs). split.
  - intros fuel Hf. destruct fuel as [|fuel]; [lia|]. cbn [nl_loop]. rewrite EJ. cbn [rbind]. rewrite Eg. cbn [rbind]. rewrite El. cbn [rbind]. rewrite Z.eqb_refl, Ep. cbn [rbind].
    assert (Els : linesrch F x (fmin F x) g p stpmax (S fuel) = Ok (if giveup then x else xs, energy n F xs, F xs, giveup)).
    { unfold linesrch. destruct (Rlt_dec stpmax (sqrt (sumsq p))) as [?|_]; [lra|]. cbv zeta. fold tl. fold lm. rewrite (scalar_Sig g p n), Es, (fmin_energy n F HF x) by auto. cbn [ls_loop]. rewrite Ept, (fmin_energy n F HF xs) by auto. fold giveup.
      destruct giveup; auto. destruct (Rle_dec _ _) as [_|Q2]; auto. exfalso. apply Q2. rewrite E0. rewrite ALPHA_val. lra. }
    rewrite Els. cbn [rbind]. destruct (Rlt_dec _ tolf); [reflexivity|contradiction].
  - right. split; auto. unfold giveup, lm. destruct (Req_EM_T (maxloop tl) 0) as [Z|NZ]; [right|destruct (Rlt_dec 1 (TOLX / maxloop tl)) as [L|L]; [right|left; auto]].
    all: split; auto; intros i Hi; pose proof (Rmax1_pos (Rabs x.[i])) as M;
      assert (B : Rabs p.[i] / Rmax (Rabs x.[i]) 1 <= maxloop tl) by (rewrite <- (nth_zip (fun pi xo => Rabs pi / Rmax (Rabs xo) 1) p x n) by auto; apply maxloop_ge, nth_In; unfold tl; rewrite (zip_length _ p x n); auto);
      assert (B2 : maxloop tl < TOLX) by (pose proof TOLX_pos; pose proof (maxloop_nonneg tl); first [lra|apply Rmult_lt_reg_r with (/ maxloop tl); [apply Rinv_0_lt_compat; lra|rewrite Rinv_r by lra; exact L]]);
      rewrite <- Pd by auto; fold TOLX; apply Rmult_lt_reg_r with (/ Rmax (Rabs x.[i]) 1); [now apply Rinv_0_lt_compat|rewrite Rmult_assoc, Rinv_r, Rmult_1_r by lra; unfold Rdiv in B; lra].
Qed.
Print Assumptions C61_affine.
(** The line search: along every direction p of descent it terminates, at a point y = xold + mu p with 0 < mu <= 1 it has evaluated F at, and either the energy at y is lower by
    1e-4 mu |slope|, or (check) y is within 1e-14 of xold and xold is given back, while *f and the stored F values remain those of y. *)
Theorem C61_linesearch n F xold fold g p stpmax : (forall x, List.length x = n -> List.length (F x) = n) -> List.length xold = n -> List.length g = n -> List.length p = n -> 0 < stpmax ->
  Sig n (fun i => g.[i] * p.[i]) < 0 ->
  exists N x f fv chk y mu, (forall fuel, (N <= fuel)%nat -> linesrch F xold fold g p stpmax fuel = Ok (x, f, fv, chk)) /\
    0 < mu <= 1 /\ List.length y = n /\ (forall i, (i < n)%nat -> y.[i] = xold.[i] + mu * p.[i]) /\ f = energy n F y /\ fv = F y /\
    ((chk = false /\ x = y /\ energy n F y <= fold + / 10 ^ 4 * mu * Sig n (fun i => g.[i] * p.[i])) \/ (chk = true /\ x = xold /\ near n xold y)).
Proof.
  intros HF Lx Lg Lp Hst Hs. destruct (linesrch_descent n F HF xold fold g p stpmax Lx Lg Lp Hst Hs) as (N & [[[x f] fv] chk] & E & y & mu & H1 & H2 & H3 & H4 & H5 & H6).
  exists N, x, f, fv, chk, y, mu. repeat (split; [assumption|]). destruct chk; [right|left]; tauto.
Qed.
Print Assumptions C61_linesearch.
(** a system which meets the hypotheses: x0 + x1 = 3, x0 - x1 = 1 *)
Definition exF (x : list R) : list R := [x.[0] + x.[1] - 3; x.[0] - x.[1] - 1].
Lemma exF_affine : affine 2 exF [1; 1; 1; -1] (fun i => nth i [-3; -1] 0).
Proof. split; [reflexivity|]. intros x i Lx Hi. destruct x as [|a [|b [|? ?]]]; try discriminate. destruct i as [|[|?]]; [| |lia]; unfold Fi, exF, times, ent; cbn -[Rmult Rplus]; lra. Qed.
Lemma exF_inv : invertible 2 [1; 1; 1; -1].
Proof. exists (fun i j => nth (2 * i + j) [/ 2; / 2; / 2; - / 2] 0). intros i j Hi Hj. destruct i as [|[|?]], j as [|[|?]]; try lia; unfold ent; cbn -[Rmult Rplus]; split; lra. Qed.
Example C61_example : affine 2 exF [1; 1; 1; -1] (fun i => nth i [-3; -1] 0) /\ invertible 2 [1; 1; 1; -1] /\ junk_ok 2 (fun z => {| j_fjac := [5; 6; 7; 8]; j_g := [1; 2]; j_idx := [7; 9]%nat; j_vscal := [3; 4] |}) /\
  (forall i, (i < 2)%nat -> Fi exF [2; 1] i = 0) /\ sqrt (Sig 2 (fun i => ([2; 1].[i] - [0; 0].[i]) ^ 2)) <= 100 * Rmax (sqrt (Sig 2 (fun i => [0; 0].[i] ^ 2))) (INR 2) /\
  (forall y J, List.length y = 2%nat -> energy 2 exF y <= energy 2 exF [0; 0] -> fd_matrix 2 exF y J -> invertible 2 J).
Proof.
  split; [apply exF_affine|]. split; [apply exF_inv|]. split; [intros z; repeat split|]. split. { intros i Hi. destruct i as [|[|?]]; [| |lia]; unfold Fi, exF; cbn -[Rmult Rplus]; lra. } split.
  - apply Rle_trans with (100 * INR 2). 2:{ apply Rmult_le_compat_l; [lra|apply Rmax_r]. } apply Rsqr_incr_0_var; [|cbn; lra]. rewrite Rsqr_sqrt; unfold Rsqr; cbn -[Rmult Rplus pow]; nra.
  - intros y J Ly _ MJ. apply (invertible_ext 2 [1; 1; 1; -1]); [|apply exF_inv]. intros i j Hi Hj. symmetry. now apply (C61_jacobian_affine 2 exF _ _ y J exF_affine).
Qed.
(** *** what is not guaranteed *)
Definition jk2 (z : Z) : junk := {| j_fjac := [0; 0; 0; 0]; j_g := [0; 0]; j_idx := [0; 0]%nat; j_vscal := [0; 0] |}.
Lemma jk2_ok : junk_ok 2 jk2. Proof. intros z. repeat split. Qed.
Lemma ent_list4 (J : list R) a b c d : List.length J = 4%nat -> ent 2 J 0 0 = a -> ent 2 J 0 1 = b -> ent 2 J 1 0 = c -> ent 2 J 1 1 = d -> J = [a; b; c; d].
Proof. intros L. destruct J as [|? [|? [|? [|? [|? ?]]]]]; try discriminate. unfold ent. cbn. now intros <- <- <- <-. Qed.
Definition chF (x : list R) : list R := [x.[0] + 2 * x.[1]; 1].
Ltac rdec := repeat match goal with
  | |- context [Rlt_dec ?a ?b] => destruct (Rlt_dec a b); try (exfalso; lra)
  | |- context [Req_EM_T ?a ?b] => destruct (Req_EM_T a b); try (exfalso; lra)
  | |- context [Rle_dec ?a ?b] => destruct (Rle_dec a b); try (exfalso; lra) end.
Ltac ev := cbn -[Rplus Rmult Rminus Ropp Rdiv Rinv Rabs Rmax sqrt pow IZR Rlt_dec Rle_dec Req_EM_T].
(** A return value between 0 and itmax with *check = 0 does not mean that a solution was found: F1 = 1 everywhere, and the starting point is returned after one step. *)
Theorem C61_check_refuted : exists n F jk x itmax tolf, (0 < n)%nat /\ (forall x, List.length x = n -> List.length (F x) = n) /\ junk_ok n jk /\ List.length x = n /\ 0 < tolf /\
  (forall y, List.length y = n -> ~ small n F tolf y) /\ exists r, (0 <= r <= itmax)%Z /\ forall fuel, (1 <= fuel)%nat -> newton_linesearch n F jk fuel x false itmax tolf = Ok (r, x, false).
Proof.
  exists 2%nat, chF, jk2, [1; 0], 1%Z, (/ 10). split; [lia|]. split; [reflexivity|]. split; [apply jk2_ok|]. split; [reflexivity|]. split; [lra|].
  split. { intros y Ly Hs. specialize (Hs 1%nat ltac:(lia)). unfold Fi, chF in Hs. cbn [nth] in Hs. rewrite Rabs_R1 in Hs. lra. }
  exists 1%Z. split; [lia|]. intros fuel Hf.
  assert (Af : affine 2 chF [1; 2; 0; 0] (fun i => nth i [0; 1] 0)). { split; [reflexivity|]. intros x i Lx Hi. destruct x as [|a [|b [|? ?]]]; try discriminate. destruct i as [|[|?]]; [| |lia]; unfold Fi, chF, times, ent; cbn -[Rmult Rplus]; lra. }
  assert (HF := proj1 Af). set (x := [1; 0]). assert (Lx : List.length x = 2%nat) by reflexivity.
  destruct (C61_jacobian 2 chF x [0; 0; 0; 0] HF Lx eq_refl) as (J & EJ & MJ). assert (EA := C61_jacobian_affine 2 chF _ _ x J Af Lx MJ).
  assert (J = [1; 2; 0; 0]). { apply ent_list4; [apply (proj1 MJ)|..]; rewrite EA by lia; reflexivity. } subst J.
  assert (Fx : chF x = [1; 1]). { unfold chF, x. cbn [nth]. repeat f_equal. lra. }
  destruct (gradient_ok 2 chF HF [1; 2; 0; 0] x [0; 0] eq_refl Lx eq_refl) as (g & Eg & Lg & Vg). assert (Hg : 1 <= Rabs g.[0]). { rewrite Vg by lia. unfold grad, Fi. rewrite Fx. unfold ent. cbn -[Rplus Rmult Rabs]. rewrite Rabs_pos_eq by lra. lra. }
  destruct (C45_return 2 [1; 2; 0; 0] [0; 0] [0; 0]%nat 1) as (r & A' & p' & par' & El & _ & _ & _ & Hrow & _ & Hsame & _). { repeat split. }
  assert (Er : r = (-2)%Z). { apply (Hrow 1%nat); [lia|]. split; [|split].
    - intros c Hc. destruct c as [|[|?]]; [reflexivity|reflexivity|lia].
    - intros k Hk. exists 0%nat. replace k with 0%nat by lia. split; [lia|]. unfold ent; cbn. lra.
    - intros c Hc. exists 0%nat. split; [lia|]. destruct c as [|[|?]]; [| |lia]; unfold ent; cbn; lra. }
  destruct Hsame as (-> & -> & ->); [rewrite Er; discriminate|]. subst r.
  assert (Es : singular_dir 2 [1; 2; 0; 0] [-1; -1] = Ok [0; 0]).
  { unfold singular_dir. ev. rewrite Rabs_R0. rewrite !(Rabs_pos_eq 1), !(Rabs_pos_eq 2) by lra. repeat (ev; rdec; ev). all: reflexivity. }
  unfold newton_linesearch. rewrite Fx. assert (Em : maxloop (map Rabs [1; 1]) = 1). { unfold maxloop. ev. rewrite Rabs_R1. rdec. all: reflexivity. } rewrite Em. destruct (Rlt_dec 1 _); [lra|].
  change (Z.to_nat 1) with 1%nat. cbn [nl_loop jk2 j_fjac j_g j_idx j_vscal]. rewrite <- Fx, EJ. cbn [rbind]. rewrite Eg. cbn [rbind]. rewrite El. cbn [rbind]. change (-2 =? 0)%Z with false. cbv iota.
  replace (map Ropp (chF x)) with [-1; -1]. 2:{ rewrite Fx. cbn [map]. repeat f_equal; lra. } rewrite Es. cbn [rbind].
  rewrite (linesrch_zero 2 chF HF); [|reflexivity|reflexivity|unfold STPMX; apply Rmult_lt_0_compat; [lra|]; eapply Rlt_le_trans; [|apply Rmax_r]; cbn; lra|intros [|[|i]] Hi; [reflexivity|reflexivity|lia]|lia].
  cbn [rbind]. rewrite Fx, Em. destruct (Rlt_dec 1 (/ 10)); [lra|]. assert (Een : energy 2 chF x = 1). { unfold energy, Fi. rewrite Fx. cbn -[Rplus Rmult Rdiv pow]. lra. }
  destruct (Rlt_dec _ TOLMIN) as [Q|Q]; auto. exfalso. revert Q. apply Rle_not_lt. apply Rle_trans with 1. { unfold TOLMIN. rewrite <- Rinv_1. apply Rinv_le_contravar; [lra|]. apply pow_R1_Rle. lra. }
  eapply Rle_trans; [|apply maxloop_ge, nth_In with (n := 0%nat) (d := 0)]. 2:{ rewrite (zip_length _ g x 2); [lia|auto|auto]. }
  rewrite (nth_zip _ g x 2) by (auto; lia). rewrite Een. replace (Rmax 1 (0.5 * INR 2)) with 1. 2:{ rewrite Rmax_left; cbn; lra. } unfold x. cbn [nth]. rewrite Rabs_R1, Rmax_left by lra. lra.
Qed.
Print Assumptions C61_check_refuted.

Definition abphi (x : R) : R := x + (x - 1) * (x - 1 - / 10 ^ 7) * (x - 11 / 10) / ((1 - / 10 ^ 7) * (9 / 10)).
Definition abF (x : list R) : list R := [-1; abphi x.[0]].
(** newton_linesearch may end the whole program: where lu_decomp reports a zero row or column the direction need not be downhill, and the line search then calls abort(). *)
Theorem C61_abort_refuted : exists n F jk x itmax tolf, (0 < n)%nat /\ (forall x, List.length x = n -> List.length (F x) = n) /\ junk_ok n jk /\ List.length x = n /\ (0 < itmax)%Z /\ 0 < tolf /\
  forall fuel, (2 <= fuel)%nat -> newton_linesearch n F jk fuel x false itmax tolf = Err.
Proof.
  exists 2%nat, abF, jk2, [1; 0], 1%Z, (/ 10). split; [lia|]. assert (HF : forall x : list R, List.length x = 2%nat -> List.length (abF x) = 2%nat) by reflexivity. split; [exact HF|]. split; [apply jk2_ok|]. split; [reflexivity|]. split; [lia|]. split; [lra|].
  intros fuel Hf. set (x := [1; 0]). assert (Lx : List.length x = 2%nat) by reflexivity. assert (Hd : 0 < / 10 ^ 7 < 1). { split; [apply Rinv_0_lt_compat, pow_lt; lra|]. rewrite <- Rinv_1. apply Rinv_lt_contravar; [|apply Rlt_pow_R1; [lra|lia]]. rewrite Rmult_1_l. apply pow_lt; lra. }
  assert (P1 : abphi 1 = 1) by (unfold abphi; set (d := / 10 ^ 7) in *; field; lra). assert (P2 : abphi 2 = 3) by (unfold abphi; set (d := / 10 ^ 7) in *; field; lra). assert (P3 : abphi (11 / 10) = 11 / 10) by (unfold abphi; set (d := / 10 ^ 7) in *; field; lra).
  assert (Pd : abphi (1 + / 10 ^ 7) = 1 + / 10 ^ 7). { unfold abphi. set (d := / 10 ^ 7) in *. field; lra. }
  assert (Fx : abF x = [-1; 1]) by (unfold abF, x; cbn [nth]; now rewrite P1).
  destruct (C61_jacobian 2 abF x [0; 0; 0; 0] HF Lx eq_refl) as (J & EJ & LJ & MJ).
  assert (H0 : fd_h 1 0 = / 10 ^ 7). { unfold fd_h. rewrite Rabs_R1, pow_O, Rmult_1_r. rewrite Rmax_left; [lra|]. unfold Rdiv. rewrite Rmult_1_l. apply Rinv_le_contravar; [apply pow_lt; lra|apply Rle_pow; [lra|lia]]. }
  assert (Q10 : fd_quotient abF x 1 0 0 = 1). { unfold fd_quotient. change (x.[0]) with 1. rewrite H0. unfold Fi. rewrite Fx. unfold abF, shifted, x. cbn [nth List.length seq map Nat.eqb]. rewrite Pd. set (d := / 10 ^ 7) in *. field. lra. }
  assert (J = [0; 0; 1; 0]). { apply ent_list4; auto.
    - destruct (MJ 0%nat) as (k & _ & V & _); [lia|]. rewrite V by lia. unfold fd_quotient, Fi, abF. cbn [nth]. unfold Rdiv. ring.
    - destruct (MJ 1%nat) as (k & _ & V & _); [lia|]. rewrite V by lia. unfold fd_quotient, Fi, abF. cbn [nth]. unfold Rdiv. ring.
    - destruct (MJ 0%nat) as (k & _ & V & Z & _); [lia|]. destruct k as [|k]. 2:{ exfalso. specialize (Z 0%nat 1%nat). rewrite Q10 in Z. apply R1_neq_R0, Z; lia. } now rewrite V by lia.
    - destruct (MJ 1%nat) as (k & _ & V & _); [lia|]. rewrite V by lia. unfold fd_quotient, Fi, abF. cbn [nth]. unfold shifted, x. cbn [nth List.length seq map Nat.eqb]. rewrite Rplus_0_r. unfold Rdiv. ring. } subst J.
  destruct (gradient_ok 2 abF HF [0; 0; 1; 0] x [0; 0] eq_refl Lx eq_refl) as (g & Eg & Lg & Vg).
  assert (Hg : g = [1; 0]). { destruct g as [|g0 [|g1 [|? ?]]]; try discriminate. pose proof (Vg 0%nat ltac:(lia)) as V0. pose proof (Vg 1%nat ltac:(lia)) as V1. unfold grad, Fi in V0, V1. rewrite Fx in V0, V1. unfold ent in V0, V1. cbn -[Rplus Rmult] in V0, V1. f_equal; [lra|f_equal; lra]. } subst g.
  destruct (C45_return 2 [0; 0; 1; 0] [0; 0] [0; 0]%nat 1) as (r & A' & p' & par' & El & _ & _ & Hcol & _ & _ & Hsame & _). { repeat split. }
  assert (Er : r = 2%Z). { apply (Hcol 1%nat); [lia|]. split.
    - intros c Hc. destruct c as [|[|?]]; [reflexivity|reflexivity|lia].
    - intros k Hk. exists 1%nat. replace k with 0%nat by lia. split; [lia|]. unfold ent; cbn. lra. }
  destruct Hsame as (-> & -> & ->); [rewrite Er; discriminate|]. subst r.
  assert (Es : singular_dir 2 [0; 0; 1; 0] [1; -1] = Ok [1; 0]).
  { unfold singular_dir. ev. rewrite Rabs_R0, Rabs_R1. unfold ldiv. repeat (ev; rdec; ev). all: repeat f_equal; lra. }
  unfold newton_linesearch. rewrite Fx. assert (Em : maxloop (map Rabs [-1; 1]) = 1). { unfold maxloop. ev. replace (Rabs (-1)) with 1 by (rewrite Rabs_left; lra). rewrite Rabs_R1. rdec. all: reflexivity. } rewrite Em. destruct (Rlt_dec 1 _); [lra|].
  change (Z.to_nat 1) with 1%nat. cbn [nl_loop jk2 j_fjac j_g j_idx j_vscal]. rewrite <- Fx, EJ. cbn [rbind]. rewrite Eg. cbn [rbind]. rewrite El. cbn [rbind]. change (2 =? 0)%Z with false. cbv iota.
  replace (map Ropp (abF x)) with [1; -1]. 2:{ rewrite Fx. cbn [map]. repeat f_equal; lra. } rewrite Es. cbn [rbind].
  assert (F0 : fmin abF x = 1). { unfold fmin, sumsq. rewrite Fx. cbn [fold_left]. lra. } rewrite F0.
  enough (Els : forall stpmax, 1 <= stpmax -> linesrch abF x 1 [1; 0] [1; 0] stpmax fuel = Err). { rewrite Els; [reflexivity|]. unfold STPMX. assert (Q2 : 2 <= Rmax (sqrt (sumsq x)) (INR 2)) by (eapply Rle_trans; [|apply Rmax_r]; cbn; lra). lra. }
  intros stpmax Hst. unfold linesrch. replace (sumsq [1; 0]) with 1 by (unfold sumsq; cbn [fold_left]; lra). rewrite sqrt_1. destruct (Rlt_dec stpmax 1); [lra|].
  replace (scalarproduct_vectors [1; 0] [1; 0]) with 1. 2:{ rewrite (scalar_Sig _ _ 2) by reflexivity. cbn -[Rplus Rmult]. lra. }
  replace (maxloop (zip (fun pi xo => Rabs pi / Rmax (Rabs xo) 1) [1; 0] x)) with 1. 2:{ unfold maxloop, x. ev. rewrite Rabs_R1, Rabs_R0, Rmax_left by lra. unfold Rdiv. rewrite Rmult_0_l, Rinv_1, Rmult_1_r. destruct (Rlt_dec 0 1); [|lra]. destruct (Rlt_dec 1 0); lra. }
  cbv zeta. destruct (Req_EM_T 1 0); [lra|]. assert (HT : TOLX < / 10). { unfold TOLX. apply Rinv_lt_contravar. - apply Rmult_lt_0_compat; [lra|apply pow_lt; lra]. - rewrite <- (pow_1 10) at 1. apply Rlt_pow; [lra|lia]. }
  destruct fuel as [|[|fuel]]; try lia. cbn [ls_loop]. destruct (Rlt_dec 1 (TOLX / 1)); [lra|].
  replace (zip (fun xo pi => xo + 1 * pi) x [1; 0]) with [2; 0]. 2:{ unfold x. cbn [zip]. ev. repeat f_equal; lra. }
  assert (F2 : fmin abF [2; 0] = 5). { unfold fmin, sumsq, abF. cbn [nth fold_left]. rewrite P2. lra. } rewrite F2. rewrite ALPHA_val. destruct (Rle_dec 5 _); [lra|]. destruct (Req_EM_T 1 1); [|lra].
  unfold ldiv at 1. destruct (Req_EM_T (2 * (5 - 1 - 1)) 0); [lra|]. cbn [rbind]. rewrite Rmax_right by lra. destruct (Rlt_dec (0.1 * 1) (TOLX / 1)); [lra|].
  replace (zip (fun xo pi => xo + 0.1 * 1 * pi) x [1; 0]) with [11 / 10; 0]. 2:{ unfold x. cbn [zip]. ev. apply f_equal2; [lra|apply f_equal2; [lra|reflexivity]]. }
  assert (F3 : fmin abF [11 / 10; 0] = 1.105). { unfold fmin, sumsq, abF. cbn [nth fold_left]. rewrite P3. lra. } rewrite F3. destruct (Rle_dec 1.105 _); [lra|]. destruct (Req_EM_T (0.1 * 1) 1); [lra|].
  unfold ldiv. destruct (Req_EM_T (0.1 * 1 - 1) 0); [lra|]. cbn [rbind].
  match goal with |- context [Req_EM_T ?u 0] => assert (Ea : u = 25 / 9) by lra; rewrite Ea; destruct (Req_EM_T (25 / 9) 0); [lra|] end.
  match goal with |- context [?u * ?u - 3 * (25 / 9) * 1] => assert (Eb : u = 2 / 9) by lra; rewrite Eb end. destruct (Rlt_dec _ 0); [reflexivity|lra].
Qed.
Print Assumptions C61_abort_refuted.
