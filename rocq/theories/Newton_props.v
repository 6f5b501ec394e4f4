(** C33: Newton. *)
From Verif Require Import Base Loops Rsum Solvers_model Solvers_spec Sparse_proofs Solvers_proofs.
Local Open Scope R_scope.
Arguments vlu {E}. Arguments vlFu {E}. Arguments vldu {E}. Arguments env {E}. Arguments mkw {E}.

Section C33.
Variables (E : Type) (Fu Jdu : world E -> world E) (alts : list (R -> world E -> world E * Z))
  (before_lin : R -> (R -> world E -> world E * Z) -> world E -> (R -> world E -> world E * Z) * world E) (after_step : world E -> world E)
  (search : (R -> world E -> world E * R) -> world E -> world E * R) (random_step : R -> world E -> world E) (P : newton_pars).
Notation newton := (Newton E Fu Jdu alts before_lin after_step search random_step P).

(** Whatever the hooks, the linear solvers and the line search do: the last thing done to the grid is an
    evaluation of F, and the reported residual is the norm of this F(u). *)
Lemma loop_report itmax tol tf lt : forall fuel it ls lam w it' nr w',
  Newton_loop E Fu Jdu alts before_lin after_step search random_step P itmax tol tf lt fuel it ls lam w = (it', nr, w') -> (it + Z.of_nat fuel)%Z = itmax ->
  (exists w0, w' = Fu w0) /\ nr = rms (List.length (vlFu w')) (fun i => (vlFu w').[i]) /\ ((it' < itmax)%Z -> nr <= tol) /\ (it <= it' <= itmax + 1)%Z.
Proof.
  induction fuel as [|fuel IH]; intros it ls lam w it' nr w' H IT; cbn [Newton_loop] in H.
  - inversion H; subst. split; [eauto|]. split; [now apply L2_rms|]. split; [lia|lia].
  - destruct (Rle_dec (GridL2Norm (vlFu (Fu w))) tol) as [C|C].
    + inversion H; subst. split; [eauto|]. split; [now apply L2_rms|]. split; [auto|lia].
    + destruct (before_lin lam ls (Fu w)) as [ls' w2]. destruct (solve_step _ _ _ _ _ _ _ _ _ _ _ _) as [[w3 lam'] quit].
      destruct quit.
      * inversion H; subst. split; [eauto|]. split; [now apply L2_rms|]. split; lia.
      * apply IH in H; [|lia]. destruct H as (A & B & C' & D). split; auto. split; auto. split; auto. lia.
Qed.
Theorem C33_report itmax tol tolFac lintol linSolver w it normres w' (F : list R -> E -> list R) :
  (* F writes its value at the u it leaves behind; it may set boundary values of u first *)
  (forall w, vlFu (Fu w) = F (vlu (Fu w)) (env (Fu w))) -> (0 <= itmax)%Z ->
  newton itmax tol tolFac lintol linSolver w = (it, normres, w') ->
  normres = rms (List.length (vlFu w')) (fun i => (F (vlu w') (env w')).[i]) /\ vlFu w' = F (vlu w') (env w') /\
  ((it < itmax)%Z -> normres <= tol) /\ (0 <= it <= itmax + 1)%Z.
Proof.
  intros HF IM H. unfold Newton in H. apply loop_report in H; [|lia]. destruct H as ((w0 & ->) & B & C & D). rewrite <- HF. auto.
Qed.

(** One step moves u along du by the fraction 1+lambda, where lambda is what the step returns, and clears
    du; without backtracking the fraction is 1. *)
Theorem C33_step n oldres w w' lambda :
  (forall w, vlu (Fu w) = vlu w /\ vldu (Fu w) = vldu w) -> (forall w, vlu (Jdu w) = vlu w /\ vldu (Jdu w) = vldu w) ->
  (forall f w, (forall l w, vldu (fst (f l w)) = vldu w) -> vldu (fst (search f w)) = vldu w) ->
  List.length (vlu w) = n -> List.length (vldu w) = n -> do_Newton_step E Fu Jdu search P oldres w = (w', lambda) ->
  List.length (vlu w') = n /\ (forall i, (i < n)%nat -> (vlu w').[i] = (vlu w).[i] - (1 + lambda) * (vldu w).[i]) /\ (forall i, (vldu w').[i] = 0) /\
  (backtrack P = false -> lambda = 0).
Proof.
  intros HF HJ HS LU LD H. unfold do_Newton_step in H. set (w1 := do_partial_Newton_step E 1 w) in *.
  assert (L1 : List.length (vlu w1) = n) by (cbn [fst snd vlu vldu do_partial_Newton_step]; now apply zip_length).
  assert (U1 : forall i, (i < n)%nat -> (vlu w1).[i] = (vlu w).[i] - 1 * (vldu w).[i]) by (intros; cbn [fst snd vlu vldu do_partial_Newton_step w1]; now rewrite (nth_zip _ _ _ n)).
  assert (D1 : vldu w1 = vldu w) by reflexivity.
  set (X := if backtrack P then _ else _) in H.
  assert (HX : List.length (vlu (fst X)) = n /\ (forall i, (i < n)%nat -> (vlu (fst X)).[i] = (vlu w).[i] - (1 + snd X) * (vldu w).[i]) /\ (backtrack P = false -> snd X = 0)).
  { unfold X. destruct (backtrack P).
    - destruct (HF w1) as [F1 F2]. destruct (orb _ _).
      + destruct (search _ (Fu w1)) as [w2 lmin] eqn:ES.
        assert (D2 : vldu w2 = vldu w).
        { replace w2 with (fst (search (Newton_residual_of_lambda E Fu (vlu (Fu w1))) (Fu w1))) by now rewrite ES.
          rewrite HS; [now rewrite F2|]. intros l w3. unfold Newton_residual_of_lambda. cbn. now rewrite (proj2 (HF _)). }
        cbn [fst snd vlu vldu do_partial_Newton_step]. rewrite D2, F1. split; [now apply zip_length|]. split; [|discriminate]. intros i Hi. rewrite (nth_zip _ _ _ n), U1 by auto. lra.
      + cbn. rewrite F1. split; auto. split; [|discriminate]. intros i Hi. rewrite U1 by auto. lra.
    - cbn [fst snd]. split; auto. split; auto. intros i Hi. rewrite U1 by auto. lra. }
  destruct X as [w2 lam]. cbn [fst snd] in HX. destruct HX as (A & B & C). apply pair_equal_spec in H. destruct H as [H1 <-]. set (w3 := set_du0 E w2) in *.
  assert (U3 : vlu w' = vlu w3 /\ vldu w' = vldu w3). { rewrite <- H1. destruct (EndOfStep_Jdu P); [apply HJ|auto]. }
  destruct U3 as [U3 D3]. rewrite U3, D3. cbn [w3 set_du0 vlu vldu]. split; auto. split; auto. split; auto. intros i. clear. generalize (vldu w2). intros l. revert i. induction l; intros [|i]; cbn; auto.
Qed.

(** A linear solver that reports failure leaves u where the solver left it, with du cleared. *)
Theorem C33_failed_solver lintol res ls quit w w1 k :
  (forall w, vlu (Jdu w) = vlu w /\ vldu (Jdu w) = vldu w) -> ls lintol w = (w1, k) -> (k < 0)%Z -> escapeMin P = false -> AltLinSolver P = false ->
  exists w' q, solve_step E Fu Jdu search random_step P lintol res ls alts quit w = (w', -1, q) /\ vlu w' = vlu w1 /\ forall i, (vldu w').[i] = 0.
Proof.
  intros HJ HL HK HE HA. destruct (HJ (set_du0 E w1)) as [J1 J2].
  assert (Z : forall (l : list R) i, (map (fun _ => 0) l).[i] = 0) by (induction l; intros [|i]; cbn; auto).
  set (w2 := if EndOfStep_Jdu P then Jdu (set_du0 E w1) else set_du0 E w1).
  assert (W : vlu w2 = vlu w1 /\ forall i, (vldu w2).[i] = 0).
  { unfold w2. destruct (EndOfStep_Jdu P). { rewrite J1, J2. cbn. auto. } cbn. auto. }
  destruct alts as [|l0 alts']; cbn [solve_step]; rewrite HL; (destruct (Z.leb_spec 0 k); [lia|]); fold w2; rewrite HE, ?HA;
    (destruct (Rlt_dec _ _); [exists w2, (orb quit (quit_ P))|exists w2, quit]; split; auto).
Qed.

(** If F is affine and the linear solver solves exactly, one step is enough. *)
Theorem C33_affine n (A : list R -> list R) (c : list R) ls itmax tol tolFac lintol w :
  linear_map n A -> List.length c = n -> List.length (vlu w) = n ->
  (forall w, vlu (Fu w) = vlu w /\ vldu (Fu w) = vldu w /\ env (Fu w) = env w) ->
  (forall w, List.length (vlu w) = n -> List.length (vlFu (Fu w)) = n /\ forall i, (i < n)%nat -> (vlFu (Fu w)).[i] = (A (vlu w)).[i] + c.[i]) ->
  (forall w, vlu (Jdu w) = vlu w /\ vldu (Jdu w) = vldu w) ->
  (forall t w, exists k, (0 <= k)%Z /\ exists w1, ls t w = (w1, k) /\ vlu w1 = vlu w /\ vlFu w1 = vlFu w /\
     (List.length (vlFu w) = n -> List.length (vldu w1) = n /\ forall i, (i < n)%nat -> (A (vldu w1)).[i] = (vlFu w).[i])) ->
  (forall l s w, before_lin l s w = (s, w)) -> (forall w, after_step w = w) -> optimal P = false -> minstep P <= 1 -> 0 <= tol -> (2 <= itmax)%Z ->
  exists it w', newton itmax tol tolFac lintol ls w = (it, rms n (fun i => (A (vlu w')).[i] + c.[i]), w') /\ (0 <= it <= 1)%Z /\
    (it = 1%Z -> forall i, (i < n)%nat -> (A (vlu w')).[i] + c.[i] = 0).
Proof.
  intros LIN LC LU HF HV HJ HL HB HA OPT MS T0 IM. unfold Newton. destruct (Z.to_nat itmax) as [|[|fuel]] eqn:EF; [lia|lia|].
  assert (FF : forall w, List.length (vlu w) = n -> GridL2Norm (vlFu (Fu w)) = rms n (fun i => (A (vlu w)).[i] + c.[i])).
  { intros w0 L0. destruct (HV w0 L0) as [V1 V2]. rewrite (L2_rms _ n V1). now apply rms_ext. }
  cbn [Newton_loop]. rewrite (FF w LU). destruct (Rle_dec _ tol) as [C|C].
  - exists 0%Z, (Fu w). rewrite (proj1 (HF w)). split; auto. split; [lia|discriminate].
  - rewrite HB. set (lt' := Rmax _ _). set (res := rms n _) in *. destruct (HL lt' (Fu w)) as (k & K0 & w1 & EL & EU & EFU & ED).
    destruct (HV w LU) as [V1 V2]. specialize (ED V1). destruct ED as [LD ED].
    assert (DN : exists w2, do_Newton_step E Fu Jdu search P res w1 = (w2, 0) /\ List.length (vlu w2) = n /\ forall i, (i < n)%nat -> (vlu w2).[i] = (vlu w).[i] - 1 * (vldu w1).[i]).
    { set (w1' := do_partial_Newton_step E 1 w1). assert (LW : List.length (vlu w1') = n). { cbn. apply zip_length; auto. rewrite EU. now rewrite (proj1 (HF w)). }
      assert (UW : forall i, (i < n)%nat -> (vlu w1').[i] = (vlu w).[i] - 1 * (vldu w1).[i]).
      { intros i Hi. cbn. rewrite (nth_zip _ _ _ n); auto; rewrite EU, (proj1 (HF w)); auto. }
      unfold do_Newton_step. fold w1'. rewrite OPT.
      assert (R0 : GridL2Norm (vlFu (Fu w1')) = 0).
      { rewrite FF by auto. unfold rms. rewrite Sig_zero. { unfold Rdiv. rewrite Rmult_0_l. apply sqrt_0. } intros i Hi.
        rewrite (proj2 LIN (vlu w) (vldu w1) _ (-1)); auto. { rewrite ED, V2 by auto. lra. } intros j Hj. rewrite UW by auto. lra. }
      rewrite R0. destruct (Rle_dec res 0) as [C0|_]; [exfalso; apply C; lra|]. cbn [orb].
      set (X := if backtrack P then _ else _). assert (HX : vlu (fst X) = vlu w1' /\ snd X = 0). { unfold X. destruct (backtrack P); cbn; split; auto. apply HF. }
      destruct X as [w2 l2]. cbn in HX. destruct HX as [HX1 HX2]. rewrite HX2.
      eexists. split; [reflexivity|]. replace (vlu (if EndOfStep_Jdu P then Jdu (set_du0 E w2) else set_du0 E w2)) with (vlu w1'); auto.
      destruct (EndOfStep_Jdu P); cbn; auto. now rewrite (proj1 (HJ _)). }
    destruct DN as (w2 & EN & LW2 & UW2).
    assert (ES : solve_step E Fu Jdu search random_step P lt' res ls alts false (Fu w) = (w2, 0, false)).
    { destruct alts; cbn [solve_step]; rewrite EL; destruct (Z.leb_spec 0 k); try lia; rewrite EN; destruct (Rlt_dec _ _) as [D|D]; auto; exfalso; rewrite Rplus_0_l, Rabs_R1 in D; lra. }
    rewrite ES, HA. cbn [Newton_loop]. rewrite (FF w2 LW2).
    assert (Z2 : forall i, (i < n)%nat -> (A (vlu w2)).[i] + c.[i] = 0).
    { intros i Hi. rewrite (proj2 LIN (vlu w) (vldu w1) _ (-1)); auto. { rewrite ED, V2 by auto. lra. } intros j Hj. rewrite UW2 by auto. lra. }
    destruct (Rle_dec _ tol) as [C2|C2].
    + exists (0 + 1)%Z, (Fu w2). rewrite (proj1 (HF w2)). split; auto. split; [lia|auto].
    + exfalso. apply C2. unfold rms. rewrite Sig_zero. { unfold Rdiv. rewrite Rmult_0_l, sqrt_0. auto. } intros i Hi. rewrite Z2 by auto. lra.
Qed.
(** The return value itmax+1 is kept for GridIterators_Newton_atlocalMin = quit: it is returned as soon as a linear solver fails, and never without this option. *)
Theorem C33_quit itmax tol tolFac lintol ls w : (1 <= itmax)%Z -> (forall l s w, before_lin l s w = (s, w)) ->
  rms (List.length (vlFu (Fu w))) (fun i => (vlFu (Fu w)).[i]) > tol -> (forall t, exists w1 k, ls t (Fu w) = (w1, k) /\ (k < 0)%Z) ->
  quit_ P = true -> AltLinSolver P = false -> 0 < minstep P -> exists nr w', newton itmax tol tolFac lintol ls w = ((itmax + 1)%Z, nr, w').
Proof.
  intros IM HB R HL HQ HA HM. unfold Newton. destruct (Z.to_nat itmax) as [|fuel] eqn:EF; [lia|]. cbn [Newton_loop]. rewrite (L2_rms _ _ eq_refl). destruct (Rle_dec _ tol); [lra|].
  rewrite HB. set (lt := Rmax _ _). destruct (HL lt) as (w1 & k & EL & HK).
  assert (HS : exists w3 lam, solve_step E Fu Jdu search random_step P lt (rms (List.length (vlFu (Fu w))) (fun i => (vlFu (Fu w)).[i])) ls alts false (Fu w) = (w3, lam, true)).
  { destruct alts; cbn [solve_step]; rewrite EL; (destruct (Z.leb_spec 0 k); [lia|]); rewrite HQ, ?HA, ?orb_true_r; (destruct (Rlt_dec _ _) as [|N]; [eexists _, _; reflexivity|exfalso; apply N; replace (-1 + 1) with 0 by lra; rewrite Rabs_R0; lra]). }
  destruct HS as (w3 & lam & ->). eauto.
Qed.
Lemma no_quit lt res : quit_ P = false -> forall rest ls w, snd (solve_step E Fu Jdu search random_step P lt res ls rest false w) = false.
Proof.
  intros HQ. induction rest as [|l rest IH]; intros ls w; cbn [solve_step]; destruct (ls lt w) as [w1 k]; destruct (if Z.leb 0 k then _ else _) as [w2 lam]; destruct (Rlt_dec _ _); auto; rewrite HQ; cbn [orb]; auto.
  destruct (AltLinSolver P); auto.
Qed.
Theorem C33_no_quit itmax tol tolFac lintol ls w it nr w' : (0 <= itmax)%Z -> quit_ P = false -> newton itmax tol tolFac lintol ls w = (it, nr, w') -> (it <= itmax)%Z.
Proof.
  intros IM HQ. unfold Newton. assert (G : forall fuel j ls lam w, (j + Z.of_nat fuel)%Z = itmax -> Newton_loop E Fu Jdu alts before_lin after_step search random_step P itmax tol tolFac lintol fuel j ls lam w = (it, nr, w') -> (it <= itmax)%Z).
  { induction fuel as [|fuel IH]; intros j l lam v HJ; cbn [Newton_loop]. { intros H; inversion H; lia. }
    destruct (Rle_dec _ tol). { intros H; inversion H; lia. } destruct (before_lin lam l (Fu v)) as [l' w2].
    match goal with |- context [solve_step ?a1 ?a2 ?a3 ?a4 ?a5 ?a6 ?a7 ?a8 ?a9 ?a10 ?a11 ?a12] => pose proof (no_quit a7 a8 HQ a10 a9 a12) as NQ; destruct (solve_step a1 a2 a3 a4 a5 a6 a7 a8 a9 a10 a11 a12) as [[w3 lam'] q] end.
    cbn in NQ. subst q. apply IH. lia. }
  apply G. lia.
Qed.
End C33.
Print Assumptions C33_quit. Print Assumptions C33_no_quit.
Print Assumptions C33_report. Print Assumptions C33_step. Print Assumptions C33_failed_solver. Print Assumptions C33_affine.

(** Examples: the function u -> 2u - 6 on one point with an exact solver, nothing else in memory *)
Definition exF (w : world unit) : world unit := mkw (vlu w) (map (fun u => 2 * u - 6) (vlu w)) (vldu w) tt.
Definition exls (t : R) (w : world unit) : world unit * Z := (mkw (vlu w) (vlFu w) (map (fun f => f / 2) (vlFu w)) tt, 1%Z).
Example ex_F_honest : forall w, vlFu (exF w) = map (fun u => 2 * u - 6) (vlu (exF w)). Proof. reflexivity. Qed.
Example ex_linear : linear_map 1 (map (fun u => 2 * u)).
Proof.
  split. { intros. now rewrite map_length. }
  intros [|x [|]] [|y [|]] [|z [|]] c; cbn; try lia. intros _ _ _ H [|i] Hi; [|lia]. rewrite (H 0%nat Hi). lra.
Qed.
Example ex_solver : forall t w, exists k, (0 <= k)%Z /\ exists w1, exls t w = (w1, k) /\ vlu w1 = vlu w /\ vlFu w1 = vlFu w /\
     (List.length (vlFu w) = 1%nat -> List.length (vldu w1) = 1%nat /\ forall i, (i < 1)%nat -> (map (fun u => 2 * u) (vldu w1)).[i] = (vlFu w).[i]).
Proof.
  intros t w. exists 1%Z. split; [lia|]. eexists. split; [reflexivity|]. cbn. repeat split. { now rewrite map_length. }
  destruct (vlFu w) as [|f [|]]; cbn in *; try lia. intros [|i] Hi; [|lia]. cbn. field.
Qed.
