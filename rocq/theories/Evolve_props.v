(** C23: evolution loop. *)
From Verif Require Import Rutil Evolve_model.
Local Open Scope R_scope.

Section E.
Variable W : Type.
Variable finaltime : W -> R.
Variable iterations : W -> Z.
Variable hook : bin -> estate W -> estate W.
Notation loop := (loop W finaltime iterations hook).
Notation evolve := (evolve_grid W finaltime iterations hook).
Notation body := (body W hook).

(** The limit in force: rounded finaltime/dt if finaltime > 0, otherwise the number of iterations. *)
Definition limit (s : estate W) (n : Z) : Prop :=
  (0 < finaltime (w _ s) -> n = Rtrunc (finaltime (w _ s) / dt _ s + / 2)) /\ (finaltime (w _ s) <= 0 -> n = iterations (w _ s)).
(** What the program is meant to do: one iteration = hooks in this order, with iteration number and time set in between. *)
Definition one_iteration (s : estate W) : estate W :=
  let s4 := hook POST_EVOLVE (hook PRE_POST_EVOLVE (hook EVOLVE (hook PRE_EVOLVE s))) in
  hook CHECKPOINT (hook POST_OUTPUT (hook OUTPUT (hook ANALYZE {| it := it _ s4 + 1; tm := IZR (it _ s4 + 1) * dt _ s4; dt := dt _ s4; w := w _ s4 |}))).
(** The iterations are repeated as long as the iteration number is below the limit in force at that moment. *)
Inductive while_below : estate W -> estate W -> Prop :=
| wb_stop s n : limit s n -> (n <= it _ s)%Z -> while_below s s
| wb_go s s' n : limit s n -> (it _ s < n)%Z -> while_below (one_iteration s) s' -> while_below s s'.

Lemma limit_itmax s : limit s (itmax_of W finaltime iterations s).
Proof.
  unfold limit, itmax_of. destruct (Rlt_dec 0 (finaltime (w _ s))); split; intros; try lra; auto. now replace (/ 2) with 0.5 by lra.
Qed.
Lemma limit_fun s n : limit s n -> n = itmax_of W finaltime iterations s.
Proof. intros [A B]. destruct (limit_itmax s) as [A' B']. destruct (Rlt_dec 0 (finaltime (w _ s))); [rewrite A, A' by auto; auto|rewrite B, B' by lra; auto]. Qed.
Lemma body_fst st : fst (body st) = one_iteration (fst st).
Proof. destruct st as [s tr]. reflexivity. Qed.

Lemma loop_while imax st st' : loop imax st st' -> imax = itmax_of W finaltime iterations (fst st) -> while_below (fst st) (fst st').
Proof.
  induction 1 as [imax st L|imax st st' L _ IH]; intros ->.
  - eapply wb_stop; [apply limit_itmax|auto].
  - eapply wb_go; [apply limit_itmax|auto|]. rewrite <- body_fst. apply IH. reflexivity.
Qed.
Lemma while_loop s s' : while_below s s' -> forall tr, exists tr', loop (itmax_of W finaltime iterations s) (s, tr) (s', tr').
Proof.
  induction 1 as [s n L E|s s' n L E _ IH]; intros tr; apply limit_fun in L; subst n.
  - exists tr. now apply loop_end.
  - destruct (IH (snd (body (s, tr)))) as [tr' H]. exists tr'. apply loop_step; [exact E|].
    rewrite body_fst. cbn [fst]. replace (body (s, tr)) with (one_iteration s, snd (body (s, tr))) by reflexivity. exact H.
Qed.
(** For any behaviour of the hooks: the evolution does nothing if the limit is not positive, and otherwise ends in s'
    if and only if repeating iterations below the limit that is in force at each test ends in s'. *)
Theorem C23_while s s' : (exists tr, evolve s (s', tr)) <->
  (exists n, limit s n /\ (((n <= 0)%Z /\ s' = s) \/ ((0 < n)%Z /\ while_below s s'))).
Proof.
  split.
  - intros [tr H]. exists (itmax_of W finaltime iterations s). split; [apply limit_itmax|]. inversion H; subst.
    + left. auto.
    + right. split; auto. change s with (fst (s, @nil event)). change s' with (fst (s', tr)). eapply loop_while; eauto.
  - intros (n & L & [[Hn ->]|[Hn HW]]); apply limit_fun in L; subst n.
    + exists []. now apply ev_none.
    + destruct (while_loop _ _ HW []) as [tr H]. exists tr. now apply ev_loop.
Qed.

(** If during an iteration the limit falls to the number of this iteration or below, it was the last one. *)
Theorem C23_lowered s s' n : while_below (one_iteration s) s' -> limit (one_iteration s) n -> (n <= it _ (one_iteration s))%Z -> s' = one_iteration s.
Proof. intros H L Hn. inversion H; subst; auto. apply limit_fun in L, H0. lia. Qed.

(** Hooks that leave the fields of the grid and the two parameters alone. *)
Hypothesis quiet : forall b s, it _ (hook b s) = it _ s /\ tm _ (hook b s) = tm _ s /\ dt _ (hook b s) = dt _ s /\
  finaltime (w _ (hook b s)) = finaltime (w _ s) /\ iterations (w _ (hook b s)) = iterations (w _ s).
(** the calls of iteration k, which starts at time t *)
Definition calls (d : R) (k : Z) (t : R) : list event :=
  [(PRE_EVOLVE, k, t); (EVOLVE, k, t); (PRE_POST_EVOLVE, k, t); (POST_EVOLVE, k, t);
   (ANALYZE, (k + 1)%Z, IZR (k + 1) * d); (OUTPUT, (k + 1)%Z, IZR (k + 1) * d); (POST_OUTPUT, (k + 1)%Z, IZR (k + 1) * d);
   (CHECKPOINT, (k + 1)%Z, IZR (k + 1) * d)].
(** the calls of m iterations from number k on *)
Fixpoint all_calls (d : R) (m : nat) (k : Z) (t : R) : list event :=
  match m with O => [] | S m' => calls d k t ++ all_calls d m' (k + 1) (IZR (k + 1) * d) end.
Lemma body_quiet s tr : exists s', body (s, tr) = (s', tr ++ calls (dt _ s) (it _ s) (tm _ s)) /\ it _ s' = (it _ s + 1)%Z /\
  tm _ s' = IZR (it _ s + 1) * dt _ s /\ dt _ s' = dt _ s /\ itmax_of W finaltime iterations s' = itmax_of W finaltime iterations s.
Proof.
  exists (one_iteration s). unfold one_iteration, Evolve_model.body, run1, advance. cbn [fst snd it tm dt].
  set (s1 := hook PRE_EVOLVE s). set (s2 := hook EVOLVE s1). set (s3 := hook PRE_POST_EVOLVE s2). set (s4 := hook POST_EVOLVE s3).
  set (s5 := {| it := it W s4 + 1; tm := IZR (it W s4 + 1) * dt W s4; dt := dt W s4; w := w W s4 |}).
  set (s6 := hook ANALYZE s5). set (s7 := hook OUTPUT s6). set (s8 := hook POST_OUTPUT s7). set (s9 := hook CHECKPOINT s8).
  destruct (quiet PRE_EVOLVE s) as (A1 & B1 & C1 & D1 & E1). destruct (quiet EVOLVE s1) as (A2 & B2 & C2 & D2 & E2).
  destruct (quiet PRE_POST_EVOLVE s2) as (A3 & B3 & C3 & D3 & E3). destruct (quiet POST_EVOLVE s3) as (A4 & B4 & C4 & D4 & E4).
  destruct (quiet ANALYZE s5) as (A6 & B6 & C6 & D6 & E6). destruct (quiet OUTPUT s6) as (A7 & B7 & C7 & D7 & E7).
  destruct (quiet POST_OUTPUT s7) as (A8 & B8 & C8 & D8 & E8). destruct (quiet CHECKPOINT s8) as (A9 & B9 & C9 & D9 & E9).
  fold s1 in A1, B1, C1, D1, E1. fold s2 in A2, B2, C2, D2, E2. fold s3 in A3, B3, C3, D3, E3. fold s4 in A4, B4, C4, D4, E4.
  fold s6 in A6, B6, C6, D6, E6. fold s7 in A7, B7, C7, D7, E7. fold s8 in A8, B8, C8, D8, E8. fold s9 in A9, B9, C9, D9, E9.
  assert (I4 : it _ s4 = it _ s) by congruence. assert (Q4 : dt _ s4 = dt _ s) by congruence.
  assert (I5 : it _ s5 = (it _ s + 1)%Z) by (cbn; congruence). assert (T5 : tm _ s5 = IZR (it _ s + 1) * dt _ s) by (cbn; congruence).
  assert (Q5 : dt _ s5 = dt _ s) by (cbn; congruence).
  split; [|split; [congruence|split; [congruence|split; [congruence|]]]].
  - f_equal. unfold calls. rewrite <- !app_assoc. cbn [app].
    assert (J1 : it _ s1 = it _ s) by congruence. assert (J2 : it _ s2 = it _ s) by congruence. assert (J3 : it _ s3 = it _ s) by congruence.
    assert (K1 : tm _ s1 = tm _ s) by congruence. assert (K2 : tm _ s2 = tm _ s) by congruence. assert (K3 : tm _ s3 = tm _ s) by congruence.
    assert (J6 : it _ s6 = (it _ s + 1)%Z) by congruence. assert (J7 : it _ s7 = (it _ s + 1)%Z) by congruence. assert (J8 : it _ s8 = (it _ s + 1)%Z) by congruence.
    assert (K6 : tm _ s6 = IZR (it _ s + 1) * dt _ s) by congruence. assert (K7 : tm _ s7 = IZR (it _ s + 1) * dt _ s) by congruence. assert (K8 : tm _ s8 = IZR (it _ s + 1) * dt _ s) by congruence.
    rewrite J1, J2, J3, K1, K2, K3, J6, J7, J8, K6, K7, K8. try rewrite I5, T5. try rewrite I4, Q4. reflexivity.
  - unfold itmax_of. assert (F : finaltime (w _ s9) = finaltime (w _ s)). { rewrite D9, D8, D7, D6. change (w _ s5) with (w _ s4). congruence. }
    assert (G : iterations (w _ s9) = iterations (w _ s)). { rewrite E9, E8, E7, E6. change (w _ s5) with (w _ s4). congruence. }
    rewrite F, G. replace (dt _ s9) with (dt _ s) by congruence. reflexivity.
Qed.
Lemma loop_quiet imax : forall m s tr, itmax_of W finaltime iterations s = imax -> Z.to_nat (imax - it _ s) = m ->
  exists s', loop imax (s, tr) (s', tr ++ all_calls (dt _ s) m (it _ s) (tm _ s)) /\ it _ s' = (it _ s + Z.of_nat m)%Z /\ dt _ s' = dt _ s /\
    (m = 0%nat -> s' = s) /\ ((0 < m)%nat -> tm _ s' = IZR (it _ s') * dt _ s').
Proof.
  induction m as [|m IH]; intros s tr HI HM.
  - exists s. cbn [all_calls]. rewrite app_nil_r. split; [apply loop_end; cbn [fst]; lia|]. repeat split; auto; lia.
  - destruct (body_quiet s tr) as (s1 & E & I1 & T1 & D1 & M1).
    destruct (IH s1 (tr ++ calls (dt _ s) (it _ s) (tm _ s))) as (s' & L & I2 & D2 & Z2 & T2); [congruence|lia|].
    exists s'. split; [|split; [lia|split; [congruence|split; [discriminate|]]]].
    + apply loop_step; [cbn [fst]; lia|]. rewrite E. cbn [fst]. rewrite M1, HI. cbn [all_calls]. rewrite app_assoc.
      rewrite D1, I1, T1 in L. exact L.
    + intros _. destruct m as [|m]; [|apply T2; lia]. rewrite (Z2 eq_refl). rewrite I1, T1, D1. reflexivity.
Qed.
Lemma loop_det imax st st1 st2 : loop imax st st1 -> loop imax st st2 -> st1 = st2.
Proof. intros H. revert st2. induction H; intros st2 H2; inversion H2; subst; auto; lia. Qed.
(** An evolution that is not stopped early: number of iterations, final iteration and time, and every call with
    the iteration and time its functions see. *)
Theorem C23_timing s n : limit s n -> (0 < n)%Z -> (it _ s < n)%Z ->
  exists s', evolve s (s', all_calls (dt _ s) (Z.to_nat (n - it _ s)) (it _ s) (tm _ s)) /\
    it _ s' = n /\ tm _ s' = IZR n * dt _ s /\ dt _ s' = dt _ s /\
    (forall s2 tr, evolve s (s2, tr) -> s2 = s' /\ tr = all_calls (dt _ s) (Z.to_nat (n - it _ s)) (it _ s) (tm _ s)).
Proof.
  intros L Hn Hi. apply limit_fun in L. symmetry in L.
  destruct (loop_quiet n _ s [] L eq_refl) as (s' & HL & I & D & _ & T). exists s'.
  split; [|split; [lia|split; [|split; [auto|]]]].
  - apply ev_loop; rewrite L; auto.
  - rewrite T by lia. rewrite I, D. f_equal. f_equal. lia.
  - intros s2 tr H. inversion H; subst; [lia|]. 
    match goal with Q : loop _ (s, []) (s2, tr) |- _ => pose proof (loop_det _ _ _ _ HL Q) as E end. cbn [app] in E. injection E as <- <-. auto.
Qed.
End E.
Print Assumptions C23_while.
Print Assumptions C23_lowered.
Print Assumptions C23_timing.

(** non-vacuity: hooks that only count calls, 3 iterations of size 1/2 from finaltime 1.5 *)
Example C23_example :
  let hook := fun (_ : bin) (s : estate nat) => {| it := it _ s; tm := tm _ s; dt := dt _ s; w := Datatypes.S (w _ s) |} in
  let s := {| it := 0%Z; tm := 0; dt := 0.5; w := 0%nat |} in
  (forall b s, it _ (hook b s) = it _ s /\ tm _ (hook b s) = tm _ s /\ dt _ (hook b s) = dt _ s /\ 1.5 = 1.5 /\ 7%Z = 7%Z) /\
  limit nat (fun _ => 1.5) (fun _ => 7%Z) s 3%Z.
Proof.
  cbv zeta. split; [intros; cbn; auto|]. split; cbn [w dt]; intros; [|lra]. symmetry. apply Rtrunc_nonneg; lra.
Qed.
