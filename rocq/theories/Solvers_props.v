(** C31: bicgstab.  C32: SOR.  C33: Newton. *)
From Verif Require Import Base Loops Rsum Sparse_model Sparse_spec Sparse_proofs Sparse_props Solvers_model Solvers_spec Solvers_proofs.
Local Open Scope R_scope.

(** *** C31 *)
Section C31.
Variables (n : nat) (lop : list R -> list R) (precon : list R -> list R -> list R) (b : list R) (tol : R).
Hypothesis LIN : linear_map n lop.
Hypothesis PL : forall o p, List.length o = n -> List.length p = n -> List.length (precon o p) = n.
Hypothesis LB : List.length b = n.

(** residual at x *)
Definition rs (x : list R) (i : nat) : R := b.[i] - (lop x).[i].
Definition binv (s : bstate) : Prop :=
  (List.length (bx s) = n /\ List.length (br s) = n /\ List.length (bp s) = n /\ List.length (bph s) = n /\ List.length (bsh s) = n /\ List.length (bv s) = n) /\
  (forall i, (i < n)%nat -> (br s).[i] = rs (bx s) i) /\ bnormres s = rms n (rs (bx s)).

Lemma axpy x y z c : List.length x = n -> List.length y = n -> List.length z = n -> (forall i, (i < n)%nat -> z.[i] = x.[i] + c * y.[i]) ->
  forall i, (i < n)%nat -> rs z i = rs x i - c * (lop y).[i].
Proof. intros X Y Z H i Hi. unfold rs. rewrite (proj2 LIN x y z c X Y Z H i Hi). lra. Qed.

Lemma loop_post rt : List.length rt = n -> forall fuel ii s, (0 <= ii)%Z -> binv s -> bnormres s > tol ->
  (ii = 0%Z -> brho s = 0 /\ bomega s = 0) -> ((0 < ii)%Z -> Rabs (brho s) >= rhotol /\ Rabs (bomega s) >= omegatol) ->
  forall ii' s', bicgstab_loop lop precon rt tol fuel ii s = Ok (ii', s') ->
  (List.length (bx s') = n /\ bnormres s' = rms n (rs (bx s'))) /\
  ((bnormres s' <= tol /\ (ii <= ii' < ii + Z.of_nat fuel)%Z /\ Rabs (brho s') >= rhotol) \/
   (bnormres s' > tol /\ (ii <= ii' < ii + Z.of_nat fuel)%Z /\ (Rabs (brho s') < rhotol \/ Rabs (bomega s') < omegatol)) \/
   (bnormres s' > tol /\ ii' = (ii + Z.of_nat fuel)%Z /\ ((0 < ii')%Z -> Rabs (brho s') >= rhotol /\ Rabs (bomega s') >= omegatol) /\ (ii' = 0%Z -> brho s' = 0))).
Proof.
  intros LR. induction fuel as [|fuel IH]; intros ii s I0 (LEN & HR & HN) HT Z0 ZP ii' s' E; cbn [bicgstab_loop] in E.
  - inversion E; subst. destruct LEN as (LX0 & _). split; [split; auto|]. right. right. split; auto. split; [lia|]. split; auto. intros HZ. apply Z0 in HZ. tauto.
  - destruct LEN as (Lx & Lr & Lp & Lph & Lsh & Lv).
    destruct (Rlt_dec (Rabs (GridDotProduct rt (br s))) rhotol) as [RH|RH].
    { inversion E; subst. cbn. split; [split; auto|]. right. left. split; auto. split; [lia|]. auto. }
    apply Rnot_lt_ge in RH. set (rho := GridDotProduct rt (br s)) in *.
    destruct (if Z.eqb ii 0 then _ else _) as [p| |] eqn:EP in E; try discriminate. cbn [rbind] in E.
    assert (LP : List.length p = n).
    { destruct (Z.eqb ii 0). { inversion EP; congruence. }
      destruct (fdiv rho (brho1 s)); try discriminate. destruct (fdiv (balpha s) (bomega s)); try discriminate. cbn in EP. inversion EP. now apply zip3_length. }
    set (ph := precon (bph s) p) in *. assert (LPH : List.length ph = n) by now apply PL.
    set (v := lop ph) in *. assert (LV : List.length v = n) by now apply LIN.
    destruct (fdiv rho (GridDotProduct rt v)) as [alpha| |]; try discriminate. cbn [rbind] in E.
    set (sv := zip _ (br s) v) in *. assert (LS : List.length sv = n) by now apply zip_length.
    set (x1 := zip (fun x ph => x + alpha * ph) (bx s) ph) in *. assert (LX1 : List.length x1 = n) by now apply zip_length.
    assert (HS : forall i, (i < n)%nat -> sv.[i] = rs x1 i).
    { intros i Hi. rewrite (axpy (bx s) ph x1 alpha Lx LPH LX1) by (auto; intros; unfold x1; now rewrite (nth_zip _ _ _ n)).
      unfold sv. rewrite (nth_zip _ _ _ n) by auto. now rewrite HR. }
    destruct (Rle_dec (GridL2Norm sv) tol) as [C1|C1].
    { inversion E; subst. cbn. split; [split|]; auto. { rewrite (L2_rms _ n) by auto. now apply rms_ext. }
      left. split; auto. split; [lia|auto]. }
    set (sh := precon (bsh s) sv) in *. assert (LSH : List.length sh = n) by now apply PL.
    set (t := lop sh) in *. assert (LT : List.length t = n) by now apply LIN.
    destruct (fdiv (GridDotProduct t sv) (GridDotProduct t t)) as [omega| |]; try discriminate. cbn [rbind] in E.
    set (x2 := zip3 _ (bx s) ph sh) in *. assert (LX2 : List.length x2 = n) by now apply zip3_length.
    set (r2 := zip _ sv t) in *. assert (LR2 : List.length r2 = n) by now apply zip_length.
    assert (HR2 : forall i, (i < n)%nat -> r2.[i] = rs x2 i).
    { intros i Hi. rewrite (axpy x1 sh x2 omega LX1 LSH LX2); auto.
      - unfold r2. rewrite (nth_zip _ _ _ n) by auto. now rewrite HS.
      - intros k Hk. unfold x2, x1. rewrite (nth_zip3 _ _ _ _ n), (nth_zip _ _ _ n) by auto. lra. }
    assert (HN2 : GridL2Norm r2 = rms n (rs x2)). { rewrite (L2_rms _ n) by auto. now apply rms_ext. }
    destruct (Rle_dec (GridL2Norm r2) tol) as [C2|C2].
    { inversion E; subst. cbn. split; [split|]; auto. left. split; auto. split; [lia|auto]. }
    destruct (Rlt_dec (Rabs omega) omegatol) as [OM|OM].
    { inversion E; subst. cbn. split; [split|]; auto. right. left. split; [lra|]. split; [lia|auto]. }
    apply IH in E; cbn; [| lia | | lra | lia | ].
    + destruct E as [E1 [E2|[E2|E2]]]; split; auto; [left|right; left|right; right].
      * destruct E2 as (? & ? & ?). split; auto. split; auto. lia.
      * destruct E2 as (? & ? & ?). split; auto. split; auto. lia.
      * destruct E2 as (? & ? & ?). split; auto. split; auto. lia.
    + split; cbn; auto. tauto.
    + intros _. split; auto. now apply Rnot_lt_ge.
Qed.

(** *normres is the root mean square of b - A x for the returned x.  A return value between 0 and itmax
    is a success; -10 and itmax+1 are failures; -11 may be both; there are no other return values. *)
Theorem C31_bicgstab_partial x itmax ret x' r' normres : List.length x = n -> (0 <= itmax)%Z ->
  bicgstab lop precon x b itmax tol = Ok (ret, x', r', normres) ->
  List.length x' = n /\ normres = rms n (fun i => b.[i] - (lop x').[i]) /\
  (((0 <= ret <= itmax)%Z /\ normres <= tol) \/ (ret = (itmax + 1)%Z /\ (1 <= itmax)%Z /\ normres > tol) \/ (ret = (-10)%Z /\ normres > tol) \/ ret = (-11)%Z) /\
  (ret = 0%Z -> x' = x).
Proof.
  intros LX IM E. unfold bicgstab in E. set (r := zip _ b (lop x)) in *.
  assert (LL : List.length (lop x) = n) by now apply LIN.
  assert (Lr : List.length r = n) by now apply zip_length.
  assert (HR : forall i, (i < n)%nat -> r.[i] = rs x i) by (intros; unfold r; now rewrite (nth_zip _ _ _ n)).
  assert (HN : GridL2Norm r = rms n (rs x)) by (rewrite (L2_rms _ n) by auto; now apply rms_ext).
  destruct (Rle_dec (GridL2Norm r) tol) as [C|C].
  - inversion E; subst. split; auto. split; auto. split; auto. left. split; [lia|auto].
  - destruct (bicgstab_loop _ _ _ _ _ _ _) as [[ii s]| |] eqn:EL in E; try discriminate. cbn [rbind] in E.
    apply loop_post in EL; cbn; auto; try lia; try lra.
    2:{ split; cbn; auto. rewrite repeat_length. tauto. }
    destruct EL as [[LX' HN'] EC]. unfold rs in HN'.
    assert (POS : rhotol > 0). { unfold rhotol. apply Rlt_gt, Rinv_0_lt_compat, pow_lt. lra. }
    assert (Rabs 0 < rhotol) by (rewrite Rabs_R0; lra).
    destruct EC as [(A & B & D)|[(A & B & D)|(A & B & D & G)]]; rewrite Z2Nat.id in B by auto;
      (destruct (Z.ltb_spec itmax ii); [lia|]); destruct (Rlt_dec (Rabs (brho s)) rhotol); try lra;
      try (destruct (Rlt_dec (Rabs (bomega s)) omegatol)); inversion E; subst; (split; [auto|split; [auto|split; [|try lia]]]);
      try (right; right; right; reflexivity); try (right; right; left; split; [reflexivity|lra]); try (left; split; [lia|lra]); try (exfalso; lra).
    + right. left. destruct (Z.eq_dec (0 + itmax) 0) as [Z0|Z0].
      * specialize (G Z0). rewrite G in *. contradiction.
      * split; [lia|]. split; [lia|lra].
Qed.
End C31.

(** The converse fails in both directions.  First: if the iterations run out, the return value itmax+1
    looks like a success (bicgstab.c:158 tests ii > itmax, but ii = itmax after the loop). *)
Definition lop2 (v : list R) : list R := match v with [a; c] => [a; 2 * c] | _ => v end.
Lemma lop2_linear : linear_map 2 lop2.
Proof.
  split.
  - intros [|a [|c [|]]] H; cbn in *; auto; lia.
  - intros [|a [|c [|]]] [|a' [|c' [|]]] [|a'' [|c'' [|]]] k H1 H2 H3 H; cbn in H1, H2, H3; try lia.
    pose proof (H 0%nat ltac:(lia)). pose proof (H 1%nat ltac:(lia)). cbn in *. intros [|[|i]] Hi; cbn; try lia; lra.
Qed.
Lemma rhotol_small : 0 < rhotol < / 10.
Proof.
  unfold rhotol. split. { apply Rinv_0_lt_compat, pow_lt. lra. }
  apply Rinv_lt_contravar. { apply Rmult_lt_0_compat; [lra|]. apply pow_lt; lra. }
  rewrite <- (pow_1 10) at 1. apply Rlt_pow; [lra|lia].
Qed.
Lemma omegatol_small : 0 < omegatol < / 10.
Proof. exact rhotol_small. Qed.
Theorem C31_exhausted_refuted : exists n lop precon x b itmax tol ret x' r' normres,
  linear_map n lop /\ List.length x = n /\ List.length b = n /\ (forall o p, List.length o = n -> List.length p = n -> List.length (precon o p) = n) /\
  bicgstab lop precon x b itmax tol = Ok (ret, x', r', normres) /\ (0 <= ret)%Z /\ normres > tol.
Proof.
  exists 2%nat, lop2, (fun _ p => p), [0; 0], [1; 1], 1%Z, 0.
  pose proof rhotol_small. pose proof omegatol_small.
  set (o := bicgstab _ _ _ _ _ _). assert (EQ : exists x' r' nr, o = Ok (2%Z, x', r', nr) /\ nr > 0).
  { assert (P : forall a c, (a <> 0 \/ c <> 0) -> ~ GridL2Norm [a; c] <= 0).
    { intros a c N H1. apply Rle_not_lt in H1. apply H1. unfold GridL2Norm. cbn [fold_left List.length]. apply sqrt_lt_R0. cbn. destruct N; nra. }
    assert (D : forall a c a' c', GridDotProduct [a; c] [a'; c'] = a * a' + c * c') by (intros; unfold GridDotProduct; cbn; lra).
    unfold o, bicgstab, zip. cbn [lop2 combine map fst snd List.length repeat].
    destruct (Rle_dec _ 0) as [C|_]; [apply P in C; [easy|left; lra]|].
    change (Z.to_nat 1) with 1%nat. cbn [bicgstab_loop br bx Z.eqb bph rbind bsh lop2]. rewrite !D.
    replace ((1 - 0) * (1 - 0) + (1 - 2 * 0) * (1 - 2 * 0)) with 2 by lra.
    replace ((1 - 0) * (1 - 0) + (1 - 2 * 0) * (2 * (1 - 2 * 0))) with 3 by lra.
    destruct (Rlt_dec _ rhotol) as [C1|_]. { exfalso. rewrite Rabs_right in C1; lra. }
    unfold fdiv at 1. destruct (Req_EM_T 3 0) as [C2|_]; [exfalso; lra|]. cbn [rbind]. unfold zip. cbn [combine map fst snd lop2].
    destruct (Rle_dec _ 0) as [C3|_]; [apply P in C3; [easy|left; lra]|]. rewrite !D.
    set (q := fdiv _ _). assert (Q : q = Ok (3 / 5)). { unfold q, fdiv. destruct (Req_EM_T _ 0) as [C4|_]; [exfalso; lra|]. f_equal. field. }
    rewrite Q. cbn [rbind]. unfold zip3. cbn [combine map fst snd].
    destruct (Rle_dec _ 0) as [C5|N5]; [apply P in C5; [easy|left; lra]|].
    destruct (Rlt_dec _ omegatol) as [C6|_]; [exfalso; rewrite Rabs_right in C6; lra|]. cbn [brho bomega rbind bx br bnormres].
    change (1 <? 0 + 1)%Z with false. cbn iota.
    destruct (Rlt_dec _ rhotol) as [C7|_]; [exfalso; rewrite Rabs_right in C7; lra|].
    destruct (Rlt_dec _ omegatol) as [C8|_]; [exfalso; rewrite Rabs_right in C8; lra|].
    do 3 eexists. split; [reflexivity|]. lra. }
  destruct EQ as (x' & r' & nr & EQ & NP). exists 2%Z, x', r', nr. repeat split; auto; try apply lop2_linear. lia.
Qed.

(** Second: with an exact preconditioner (A (precon p) = p) the first half step solves the system, but the
    return value is -11 (omega is still 0).  Newton.c then discards the solution. *)
Theorem C31_exact_precon_refuted n lop precon x b itmax tol : linear_map n lop -> List.length x = n -> List.length b = n ->
  (forall o p, List.length o = n -> List.length p = n -> List.length (precon o p) = n /\ lop (precon o p) = p) ->
  0 <= tol -> (0 < itmax)%Z -> rms n (fun i => b.[i] - (lop x).[i]) > tol -> Sig n (fun i => (b.[i] - (lop x).[i]) * (b.[i] - (lop x).[i])) >= rhotol ->
  exists x' r', bicgstab lop precon x b itmax tol = Ok ((-11)%Z, x', r', 0) /\ (forall i, (i < n)%nat -> (lop x').[i] = b.[i]).
Proof.
  intros LIN LX LB PC T0 IM INI RHO. unfold bicgstab. set (r := zip _ b (lop x)).
  assert (LL : List.length (lop x) = n) by now apply LIN.
  assert (Lr : List.length r = n) by now apply zip_length.
  assert (HR : forall i, (i < n)%nat -> r.[i] = b.[i] - (lop x).[i]) by (intros; unfold r; now rewrite (nth_zip _ _ _ n)).
  destruct (Rle_dec (GridL2Norm r) tol) as [C|_].
  { exfalso. rewrite (L2_rms _ n) in C by auto. rewrite (rms_ext _ _ _ HR) in C. lra. }
  destruct (Z.to_nat itmax) as [|fuel] eqn:EF; [lia|]. cbn [bicgstab_loop br bx Z.eqb bph rbind bsh].
  assert (DR : GridDotProduct r r = Sig n (fun i => (b.[i] - (lop x).[i]) * (b.[i] - (lop x).[i]))).
  { rewrite (dot_Sig _ _ n) by auto. apply Sig_ext. intros i Hi. now rewrite HR. }
  pose proof rhotol_small. pose proof omegatol_small.
  destruct (Rlt_dec _ rhotol) as [C|_]. { exfalso. rewrite DR, Rabs_right in C; lra. }
  destruct (PC (repeat 0 (List.length x)) r) as [LP EP]; auto. { now rewrite repeat_length. }
  rewrite EP. unfold fdiv. destruct (Req_EM_T (GridDotProduct r r) 0) as [C|NZ]; [exfalso; lra|]. cbn [rbind].
  replace (GridDotProduct r r / GridDotProduct r r) with 1 by (field; lra).
  set (sv := zip (fun r v => r - 1 * v) r r). assert (LS : List.length sv = n) by now apply zip_length.
  assert (ES : GridL2Norm sv = 0).
  { rewrite (L2_rms _ n) by auto. unfold rms. rewrite Sig_zero. { unfold Rdiv. rewrite Rmult_0_l. apply sqrt_0. }
    intros i Hi. unfold sv. rewrite (nth_zip _ _ _ n) by auto. lra. }
  destruct (Rle_dec (GridL2Norm sv) tol) as [_|C]; [|rewrite ES in C; contradiction]. cbn [rbind brho bomega bx br bnormres]. rewrite ES.
  destruct (Z.ltb_spec itmax 0); [lia|].
  destruct (Rlt_dec _ rhotol) as [C|_]. { exfalso. rewrite DR, Rabs_right in C; lra. }
  destruct (Rlt_dec _ omegatol) as [_|C]; [|rewrite Rabs_R0 in C; lra].
  do 2 eexists. split; [reflexivity|]. intros i Hi.
  rewrite (proj2 LIN x (precon (repeat 0 (List.length x)) r) _ 1); auto.
  - rewrite EP, HR by auto. lra.
  - now apply zip_length.
  - intros k Hk. now rewrite (nth_zip _ _ _ n).
Qed.
Print Assumptions C31_bicgstab_partial. Print Assumptions C31_exhausted_refuted. Print Assumptions C31_exact_precon_refuted.

(** the hypotheses of C31_exact_precon_refuted hold for lop2 and its inverse, b = (1,1), x = 0 *)
Definition inv2 (o v : list R) : list R := match v with [a; c] => [a; c / 2] | _ => v end.
Example ex_inv2 : forall o p, List.length o = 2%nat -> List.length p = 2%nat -> List.length (inv2 o p) = 2%nat /\ lop2 (inv2 o p) = p.
Proof. intros o [|a [|c [|]]] _ H; cbn in *; try lia. split; auto. f_equal. f_equal. field. Qed.
Example ex_start : rms 2 (fun i => [1; 1].[i] - (lop2 [0; 0]).[i]) > / 2 /\ Sig 2 (fun i => ([1; 1].[i] - (lop2 [0; 0]).[i]) * ([1; 1].[i] - (lop2 [0; 0]).[i])) >= rhotol.
Proof.
  pose proof rhotol_small. unfold rms. cbn. split; [|lra].
  replace ((0 + (1 - 0) * (1 - 0) + (1 - 2 * 0) * (1 - 2 * 0)) / (1 + 1)) with 1 by field. rewrite sqrt_1. lra.
Qed.
