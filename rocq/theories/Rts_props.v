(** C118: Newton's method inside a bracket returns a point of the bracket next to a change of sign, and it converges. *)
From Verif Require Import Rutil Rts_model.
From Coq Require Import Lia Ranalysis5.
Local Open Scope R_scope.
(** ** specification *)
Definition between (p q x : R) : Prop := p <= x <= q \/ q <= x <= p.
Definition negative (v : fv) : Prop := v = NInf \/ exists r, v = Fin r /\ r < 0.
Definition positive (v : fv) : Prop := v = PInf \/ exists r, v = Fin r /\ 0 < r.
Definition zero (v : fv) : Prop := v = Fin 0.
Definition finite (v : fv) : Prop := exists r, v = Fin r.
(** the values at the two ends are zero or have opposite signs *)
Definition bracketed (v w : fv) : Prop := ((negative v \/ zero v) /\ (positive w \/ zero w)) \/ ((positive v \/ zero v) /\ (negative w \/ zero w)).
(** x is in a bracket p, q inside x1, x2, and it is the middle of a bracket shorter than 2 xacc, or a Newton step shorter than xacc away from an end of it *)
Definition good (fd : R -> fv * fv) (x1 x2 xacc x : R) : Prop := exists p q,
  negative (fst (fd p)) /\ positive (fst (fd q)) /\ between x1 x2 p /\ between x1 x2 q /\ between p q x /\
  ((x = (p + q) / 2 /\ Rabs (q - p) < 2 * xacc) \/ exists t f df, (t = p \/ t = q) /\ fd t = (Fin f, Fin df) /\ df <> 0 /\ x = t - f / df /\ Rabs (f / df) < xacc).
Definition if_bracketed_then (B P Q : Prop) : Prop := (B -> P) /\ (~ B -> Q).
(** ** one pass through the loop *)
Definition inv (fd : R -> fv * fv) (x1 x2 rts xl xh : R) : Prop := negative (fst (fd xl)) /\ positive (fst (fd xh)) /\ between x1 x2 xl /\ between x1 x2 xh /\ between xl xh rts.
Lemma neg_pos (fd : R -> fv * fv) p q : negative (fst (fd p)) -> positive (fst (fd q)) -> p <> q.
Proof. intros [N|(r & N & Hr)] [P|(s & P & Hs)] ->; rewrite N in P; try discriminate. injection P as ->. lra. Qed.
Lemma between_mid p q : between p q (p + 0.5 * (q - p)). Proof. unfold between. destruct (Rle_dec p q); lra. Qed.
Lemma between_in p q r : ~ 0 < (r - q) * (r - p) -> between p q r.
Proof. intros H. unfold between. destruct (Rle_dec p r), (Rle_dec r q); try lra; destruct (Rle_dec q r), (Rle_dec r p); try lra; exfalso; apply H; nra. Qed.
Section STEP.
Variables (fd : R -> fv * fv) (xacc x1 x2 : R).
Lemma between_trans rts xl xh : between x1 x2 xl -> between x1 x2 xh -> between xl xh rts -> between x1 x2 rts. Proof. unfold between. intros; destruct H, H0, H1; lra. Qed.
(** what a pass does: it ends without a number, with a root, with a good point, or goes on *)
Inductive pass (n : nat) (j : Z) (rts xl xh dxold dx : R) : Z * option R -> Prop :=
| P_nonfin : ~ finite (fst (fd rts)) -> pass n j rts xl xh dxold dx ((- j)%Z, None)
| P_root : zero (fst (fd rts)) -> pass n j rts xl xh dxold dx (j, Some rts)
| P_good x : good fd x1 x2 xacc x -> pass n j rts xl xh dxold dx (j, Some x)
| P_newton f df rts' xl' xh' dx' : fd rts = (Fin f, Fin df) -> inv fd x1 x2 rts' xl' xh' -> (rts = xl' /\ xh' = xh \/ rts = xh' /\ xl' = xl) -> xacc <= Rabs dx' -> 2 * Rabs dx' <= Rabs dxold -> pass n j rts xl xh dxold dx (rts_loop fd xacc n (j + 1) rts' xl' xh' dx dx')
| P_bisect xl' xh' : inv fd x1 x2 ((xl' + xh') / 2) xl' xh' -> (rts = xl' /\ xh' = xh \/ rts = xh' /\ xl' = xl) -> xacc <= Rabs ((xh' - xl') / 2) -> pass n j rts xl xh dxold dx (rts_loop fd xacc n (j + 1) ((xl' + xh') / 2) xl' xh' dx ((xh' - xl') / 2)).
Lemma pass_ok n j rts xl xh dxold dx : inv fd x1 x2 rts xl xh -> pass n j rts xl xh dxold dx (rts_loop fd xacc (S n) j rts xl xh dxold dx).
Proof.
  intros (NL & PH & BL & BH & BR). cbn [rts_loop]. destruct (fst (fd rts)) as [f| | |] eqn:EF; try (apply P_nonfin; rewrite EF; intros (r & Q); discriminate).
  destruct (Req_EM_T f 0) as [Z0|NZ]; [apply P_root; rewrite EF; unfold zero; now subst|].
  set (xl' := if Rlt_dec f 0 then rts else xl). set (xh' := if Rlt_dec f 0 then xh else rts). cbv zeta.
  assert (I : negative (fst (fd xl')) /\ positive (fst (fd xh')) /\ between x1 x2 xl' /\ between x1 x2 xh' /\ (rts = xl' /\ xh' = xh \/ rts = xh' /\ xl' = xl)).
  { pose proof (between_trans _ _ _ BL BH BR) as BT. unfold xl', xh'. destruct (Rlt_dec f 0).
    - split; [right; eauto|]. split; [exact PH|]. split; [exact BT|]. split; [exact BH|]. left; auto.
    - split; [exact NL|]. split; [right; exists f; split; [exact EF|lra]|]. split; [exact BL|]. split; [exact BT|]. right; auto. }
  clearbody xl' xh'. destruct I as (NL' & PH' & BL' & BH' & ENDS). assert (NE := neg_pos fd _ _ NL' PH').
  assert (BIS : pass n j rts xl xh dxold dx (if Req_EM_T xl' (xl' + 0.5 * (xh' - xl')) then (j, Some (xl' + 0.5 * (xh' - xl'))) else if Rlt_dec (Rabs (0.5 * (xh' - xl'))) xacc then (j, Some (xl' + 0.5 * (xh' - xl'))) else rts_loop fd xacc n (j + 1) (xl' + 0.5 * (xh' - xl')) xl' xh' dx (0.5 * (xh' - xl')))).
  { replace (xl' + 0.5 * (xh' - xl')) with ((xl' + xh') / 2) by lra. replace (0.5 * (xh' - xl')) with ((xh' - xl') / 2) by lra. assert (BM := between_mid xl' xh'). replace (xl' + 0.5 * (xh' - xl')) with ((xl' + xh') / 2) in BM by lra.
    destruct (Req_EM_T xl' ((xl' + xh') / 2)); [exfalso; apply NE; lra|]. destruct (Rlt_dec (Rabs ((xh' - xl') / 2)) xacc) as [LT|GE].
    - apply P_good. exists xl', xh'. repeat split; auto. left. split; [reflexivity|]. replace (xh' - xl') with (2 * ((xh' - xl') / 2)) by lra. rewrite Rabs_mult, (Rabs_pos_eq 2) by lra. lra.
    - apply P_bisect; auto; [repeat split; auto|lra]. }
  destruct (snd (fd rts)) as [df| | |] eqn:ED; try exact BIS. destruct (Rlt_dec (Rabs (dxold * df)) (Rabs (2 * f))) as [|SM]; [exact BIS|].
  assert (DF : df <> 0). { intros ->. apply SM. rewrite Rmult_0_r, Rabs_R0. apply Rabs_pos_lt. lra. }
  assert (FQ : f / df <> 0) by (unfold Rdiv; apply Rmult_integral_contrapositive_currified; auto; now apply Rinv_neq_0_compat).
  destruct (Req_EM_T rts (rts - f / df)); [exfalso; apply FQ; lra|].
  destruct (Rlt_dec 0 ((rts - f / df - xh') * (rts - f / df - xl'))) as [|IN]; [exact BIS|]. apply between_in in IN. assert (EQ : fd rts = (Fin f, Fin df)) by (destruct (fd rts); cbn [fst snd] in EF, ED; now subst).
  destruct (Rlt_dec (Rabs (f / df)) xacc) as [LT|GE].
  - apply P_good. exists xl', xh'. repeat split; auto. right. exists rts, f, df. repeat split; auto; tauto.
  - apply (P_newton n j rts xl xh dxold dx f df); auto; [repeat split; auto|lra|].
    assert (0 < Rabs df) by now apply Rabs_pos_lt. rewrite !Rabs_mult, (Rabs_pos_eq 2) in SM by lra. unfold Rdiv. rewrite Rabs_mult, Rabs_inv. apply (Rmult_le_reg_r (Rabs df)); [assumption|]. replace (2 * (Rabs f * / Rabs df) * Rabs df) with (2 * Rabs f) by (field; lra). lra.
Qed.
(** ** all passes *)
Lemma loop_ok n : forall j rts xl xh dxold dx c o, inv fd x1 x2 rts xl xh -> (0 < j)%Z -> rts_loop fd xacc n j rts xl xh dxold dx = (c, o) ->
  (o = None /\ (j <= - c < j + Z.of_nat n)%Z /\ exists x, between x1 x2 x /\ ~ finite (fst (fd x))) \/
  (exists x, o = Some x /\ (j <= c <= j + Z.of_nat n)%Z /\ between x1 x2 x /\ (zero (fst (fd x)) \/ good fd x1 x2 xacc x \/ (c = j + Z.of_nat n)%Z)).
Proof.
  induction n as [|n IH]; intros j rts xl xh dxold dx c o I Hj E.
  - cbn [rts_loop] in E. injection E as <- <-. right. exists rts. destruct I as (_ & _ & BL & BH & BR). repeat split; try lia. now apply (between_trans rts xl xh).
  - pose proof (pass_ok n j rts xl xh dxold dx I) as P. rewrite E in P. assert (BT : between x1 x2 rts) by (destruct I as (_ & _ & BL & BH & BR); now apply (between_trans rts xl xh)).
    inversion P; subst.
    + left. repeat split; try lia. exists rts. auto.
    + right. exists rts. repeat split; auto; lia.
    + right. exists x. repeat split; auto; try lia. destruct H0 as (p & q & _ & _ & B1 & B2 & B3 & _). now apply (between_trans x p q).
    + match goal with H : rts_loop _ _ _ _ _ _ _ _ _ = _ |- _ => apply IH in H; [|assumption|lia]; destruct H as [(Q1 & Q2 & Q3)|(x & Q1 & Q2 & Q3 & Q4)]; [left; repeat split; auto; lia|right; exists x; repeat split; auto; try lia; destruct Q4 as [|[|]]; auto; right; right; lia] end.
    + match goal with H : rts_loop _ _ _ _ _ _ _ _ _ = _ |- _ => apply IH in H; [|assumption|lia]; destruct H as [(Q1 & Q2 & Q3)|(x & Q1 & Q2 & Q3 & Q4)]; [left; repeat split; auto; lia|right; exists x; repeat split; auto; try lia; destruct Q4 as [|[|]]; auto; right; right; lia] end.
Qed.
(** ** convergence *)
Lemma pow2_S k : 2 ^ (S k) = 2 * 2 ^ k. Proof. reflexivity. Qed.
Lemma pow2_ge1 k : 1 <= 2 ^ k. Proof. apply pow_R1_Rle. lra. Qed.
Lemma loop_conv K : 0 < xacc -> forall n j rts xl xh dxold dx b p q c o, inv fd x1 x2 rts xl xh -> (0 < j)%Z -> (forall x, between x1 x2 x -> finite (fst (fd x))) ->
  (1 <= b <= K)%nat -> (p <= K)%nat -> (q <= K)%nat -> Rabs (rts - xl) < 2 ^ b * xacc -> Rabs (rts - xh) < 2 ^ b * xacc -> Rabs dxold < 2 ^ p * xacc -> Rabs dx < 2 ^ q * xacc -> (2 * K * b + p + q <= n)%nat ->
  rts_loop fd xacc n j rts xl xh dxold dx = (c, o) -> (j <= c < j + Z.of_nat n)%Z /\ exists x, o = Some x /\ (zero (fst (fd x)) \/ good fd x1 x2 xacc x).
Proof.
  intros XA. induction n as [|n IH]; intros j rts xl xh dxold dx b p q c o I Hj FIN Hb Hp Hq WL WH D1 D2 MU E; [exfalso; nia|].
  pose proof (pass_ok n j rts xl xh dxold dx I) as P. rewrite E in P. assert (BT : between x1 x2 rts) by (destruct I as (_ & _ & BL & BH & BR); now apply (between_trans rts xl xh)).
  assert (WID : forall xl' xh', rts = xl' /\ xh' = xh \/ rts = xh' /\ xl' = xl -> Rabs (xh' - xl') < 2 ^ b * xacc). { intros xl' xh' [(-> & ->)|(-> & ->)]; [now rewrite Rabs_minus_sym|exact WL]. }
  inversion P; subst.
  - exfalso. match goal with H : ~ finite _ |- _ => apply H end. now apply FIN.
  - split; [lia|]. eauto.
  - split; [lia|]. eauto.
  - destruct p as [|p]; [exfalso; cbn [pow] in D1; match goal with H : xacc <= Rabs dx' |- _ => pose proof H end; lra|].
    match goal with H : rts_loop _ _ _ _ _ _ _ _ _ = _ |- _ => rename H into EL end. assert (WW := WID _ _ H2).
    assert (SH : forall e, between xl' xh' rts' -> (e = xl' \/ e = xh') -> Rabs (rts' - e) <= Rabs (xh' - xl')). { intros e Bt Ee. unfold Rabs. destruct Bt, Ee; subst; destruct (Rcase_abs _), (Rcase_abs _); lra. }
    pose proof H1 as (I1 & I2 & I3 & I4 & I5).
    apply (IH _ _ _ _ _ _ b q p) in EL; auto; try lia; try (eapply Rle_lt_trans; [apply SH; auto|exact WW]).
    + destruct EL as (C1 & C2). split; [lia|exact C2].
    + rewrite pow2_S in D1. match goal with H : 2 * Rabs dx' <= _ |- _ => pose proof H end. lra.
  - match goal with H : rts_loop _ _ _ _ _ _ _ _ _ = _ |- _ => rename H into EL end. match goal with H : rts = _ /\ _ \/ _ |- _ => assert (WW := WID _ _ H) end. match goal with H : xacc <= Rabs _ |- _ => rename H into GE end.
    assert (HALF : Rabs ((xh' - xl') / 2) = Rabs (xh' - xl') / 2) by (unfold Rdiv; rewrite Rabs_mult, (Rabs_pos_eq (/ 2)) by lra; reflexivity).
    destruct b as [|[|b]]; [lia|cbn [pow] in WW; lra|]. rewrite pow2_S in WW.
    apply (IH _ _ _ _ _ _ (S b) q (S b)) in EL; auto; try lia.
    + destruct EL as (C1 & C2). split; [lia|exact C2].
    + replace ((xl' + xh') / 2 - xl') with ((xh' - xl') / 2) by lra. lra.
    + replace ((xl' + xh') / 2 - xh') with (- ((xh' - xl') / 2)) by lra. rewrite Rabs_Ropp. lra.
    + lra.
Qed.
End STEP.
(** ** the whole function *)
Lemma fle0_ok v : fle0 v = true <-> negative v \/ zero v.
Proof. unfold negative, zero. destruct v as [r| | |]; cbn [fle0]; try (split; [discriminate|intros [[Q|(s & Q & _)]|Q]; discriminate]); [|split; auto].
  destruct (Rle_dec r 0); split; try discriminate; intros; auto; [destruct (Req_dec r 0); [right; congruence|left; right; exists r; split; [auto|lra]]|destruct H as [[Q|(s & Q & Hs)]|Q]; [discriminate| |]; injection Q as ->; lra]. Qed.
Lemma fge0_ok v : fge0 v = true <-> positive v \/ zero v.
Proof. unfold positive, zero. destruct v as [r| | |]; cbn [fge0]; try (split; [discriminate|intros [[Q|(s & Q & _)]|Q]; discriminate]); [|split; auto].
  destruct (Rle_dec 0 r); split; try discriminate; intros; auto; [destruct (Req_dec r 0); [right; congruence|left; right; exists r; split; [auto|lra]]|destruct H as [[Q|(s & Q & Hs)]|Q]; [discriminate| |]; injection Q as ->; lra]. Qed.
Lemma feq0_ok v : feq0 v = true <-> zero v.
Proof. unfold zero. destruct v as [r| | |]; cbn [feq0]; try (split; discriminate). destruct (Req_EM_T r 0); split; try discriminate; intros; [congruence|auto|]. injection H as ->. now destruct n. Qed.
Lemma flt0_ok v : flt0 v = true <-> negative v.
Proof. unfold negative. destruct v as [r| | |]; cbn [flt0]; try (split; [discriminate|intros [Q|(s & Q & _)]; discriminate]); [|split; auto].
  destruct (Rlt_dec r 0); split; try discriminate; intros; eauto. destruct H as [Q|(s & Q & Hs)]; [discriminate|]. injection Q as ->. contradiction. Qed.
Lemma start_ok x0 x1 x2 : between x1 x2 (rts_start x0 x1 x2).
Proof. unfold rts_start, between. destruct x0; repeat destruct (Rle_dec _ _); lra. Qed.
Lemma bracket_ok v w : ((fle0 v && fge0 w) || (fge0 v && fle0 w))%bool = true <-> bracketed v w.
Proof. rewrite orb_true_iff, !andb_true_iff, !fle0_ok, !fge0_ok. reflexivity. Qed.
Lemma sorted fd x1 x2 : bracketed (fst (fd x1)) (fst (fd x2)) -> feq0 (fst (fd x1)) = false -> feq0 (fst (fd x2)) = false ->
  forall x0, inv fd x1 x2 (rts_start x0 x1 x2) (if flt0 (fst (fd x1)) then x1 else x2) (if flt0 (fst (fd x1)) then x2 else x1).
Proof.
  intros B N1 N2 x0. assert (Z1 : ~ zero (fst (fd x1))) by (rewrite <- feq0_ok; congruence). assert (Z2 : ~ zero (fst (fd x2))) by (rewrite <- feq0_ok; congruence).
  assert (E1 : between x1 x2 x1) by (unfold between; destruct (Rle_dec x1 x2); lra). assert (E2 : between x1 x2 x2) by (unfold between; destruct (Rle_dec x1 x2); lra).
  assert (BS := start_ok x0 x1 x2). assert (BS' : between x2 x1 (rts_start x0 x1 x2)) by (unfold between in *; tauto).
  destruct (flt0 (fst (fd x1))) eqn:EL.
  - apply flt0_ok in EL. assert (positive (fst (fd x2))). { destruct B as [(_ & [P|P])|([P|P] & _)]; auto; [contradiction| |contradiction]. exfalso. now apply (neg_pos fd x1 x1). } repeat split; auto.
  - assert (NL : ~ negative (fst (fd x1))) by (rewrite <- flt0_ok; congruence). assert (positive (fst (fd x1)) /\ negative (fst (fd x2))) as (P & N) by (unfold bracketed in B; tauto). repeat split; auto.
Qed.
(** ** the code and the number returned *)
Theorem C118_result x0 fd x1 x2 MAXIT xacc c o : (0 <= MAXIT)%Z -> rtsafe_itsP x0 fd x1 x2 MAXIT xacc = (c, o) ->
  match x1, x2 with
  | Fin a, Fin b =>
      if_bracketed_then (bracketed (fst (fd a)) (fst (fd b)))
        ((o = None /\ (1 <= - c <= MAXIT)%Z /\ exists x, between a b x /\ ~ finite (fst (fd x))) \/
         exists x, o = Some x /\ (0 <= c <= MAXIT + 1)%Z /\ between a b x /\ (zero (fst (fd x)) \/ good fd a b xacc x \/ (c = MAXIT + 1)%Z))
        (o = None /\ (c = -2 * MAXIT - 3)%Z)
  | Fin _, _ => o = None /\ (c = -2 * MAXIT - 2)%Z
  | _, _ => o = None /\ (c = -2 * MAXIT - 1)%Z
  end.
Proof.
  intros HM E. destruct x1 as [a| | |]; try (cbn [rtsafe_itsP] in E; injection E as <- <-; auto). destruct x2 as [b| | |]; try (cbn [rtsafe_itsP] in E; injection E as <- <-; auto).
  cbn [rtsafe_itsP] in E. assert (E1 : between a b a) by (unfold between; destruct (Rle_dec a b); lra). assert (E2 : between a b b) by (unfold between; destruct (Rle_dec a b); lra).
  split; intros B.
  - pose proof (proj2 (bracket_ok _ _) B) as B'. rewrite B' in E. cbn [negb] in E. destruct (feq0 (fst (fd a))) eqn:F1.
    { injection E as <- <-. right. exists a. repeat split; auto; try lia. left. now apply feq0_ok. }
    destruct (feq0 (fst (fd b))) eqn:F2.
    { injection E as <- <-. right. exists b. repeat split; auto; try lia. left. now apply feq0_ok. }
    apply (loop_ok fd xacc a b) in E; [|now apply sorted|lia]. rewrite Z2Nat.id in E by lia.
    destruct E as [(Q1 & Q2 & Q3)|(x & Q1 & Q2 & Q3 & Q4)]; [left; repeat split; auto; lia|right; exists x; repeat split; auto; try lia]. destruct Q4 as [|[|]]; auto. right; right; lia.
  - destruct ((fle0 (fst (fd a)) && fge0 (fst (fd b))) || (fge0 (fst (fd a)) && fle0 (fst (fd b))))%bool eqn:B'; [exfalso; apply B; now apply bracket_ok|]. cbn [negb] in E. injection E as <- <-. auto.
Qed.
(** ** convergence: if the bracket is shorter than 2^K xacc then 2 K^2 + 2 K iterations are enough *)
Theorem C118_converges x0 fd a b MAXIT xacc K c o : 0 < xacc -> (1 <= K)%nat -> Rabs (b - a) < 2 ^ K * xacc -> (2 * Z.of_nat K * Z.of_nat K + 2 * Z.of_nat K <= MAXIT)%Z ->
  bracketed (fst (fd a)) (fst (fd b)) -> (forall x, between a b x -> finite (fst (fd x))) ->
  rtsafe_itsP x0 fd (Fin a) (Fin b) MAXIT xacc = (c, o) -> (0 <= c <= MAXIT)%Z /\ exists x, o = Some x /\ between a b x /\ (zero (fst (fd x)) \/ good fd a b xacc x).
Proof.
  intros XA HK W HM B FIN E. assert (E1 : between a b a) by (unfold between; destruct (Rle_dec a b); lra). assert (E2 : between a b b) by (unfold between; destruct (Rle_dec a b); lra).
  assert (PRE : (0 <= c <= MAXIT)%Z /\ exists x, o = Some x /\ (zero (fst (fd x)) \/ good fd a b xacc x)).
  { cbn [rtsafe_itsP] in E. pose proof (proj2 (bracket_ok _ _) B) as B'. rewrite B' in E. cbn [negb] in E. destruct (feq0 (fst (fd a))) eqn:F1.
    { injection E as <- <-. split; [lia|]. exists a. split; [reflexivity|]. left. now apply feq0_ok. }
    destruct (feq0 (fst (fd b))) eqn:F2.
    { injection E as <- <-. split; [lia|]. exists b. split; [reflexivity|]. left. now apply feq0_ok. }
    assert (ST := start_ok x0 a b). assert (SH : forall e, (e = a \/ e = b) -> Rabs (rts_start x0 a b - e) <= Rabs (b - a)). { intros e Ee. unfold Rabs. destruct ST, Ee; subst; destruct (Rcase_abs _), (Rcase_abs _); lra. }
    apply (loop_conv fd xacc a b K XA _ _ _ _ _ _ _ K K K) in E; try lia; auto.
    - destruct E as (C1 & C2). rewrite Z2Nat.id in C1 by lia. split; [lia|exact C2].
    - now apply sorted.
    - eapply Rle_lt_trans; [apply SH; destruct (flt0 _); auto|exact W].
    - eapply Rle_lt_trans; [apply SH; destruct (flt0 _); auto|exact W].
    - now rewrite Rabs_Rabsolu.
    - now rewrite Rabs_Rabsolu. }
  split; [apply PRE|]. destruct PRE as (C1 & x & O & G). exists x. split; [exact O|]. split; [|exact G].
  pose proof (C118_result x0 fd (Fin a) (Fin b) MAXIT xacc c o ltac:(lia) E) as (R1 & _). destruct (R1 B) as [(Q & _)|(x' & Q & _ & Q' & _)]; congruence.
Qed.
(** ** how far the number is from a root *)
Lemma ivt F p q : p <> q -> (forall x, between p q x -> continuity_pt F x) -> F p < 0 -> 0 < F q -> exists z, between p q z /\ F z = 0.
Proof.
  intros NE C P Q. destruct (Rlt_dec p q) as [L|L].
  - destruct (IVT_interv F p q) as (z & Hz & Ez); auto; [intros; apply C; now left|]. exists z. split; [now left|exact Ez].
  - destruct (IVT_interv (fun x => - F x) q p) as (z & Hz & Ez); try lra; [intros; apply (continuity_pt_opp F), C; now right|]. exists z. split; [now right|lra].
Qed.
Theorem C118_root fd F dF a b xacc x : (forall x, between a b x -> fd x = (Fin (F x), Fin (dF x)) /\ continuity_pt F x) -> good fd a b xacc x -> exists z, between a b z /\ F z = 0 /\
  forall m M, 0 < m -> (forall u, between a b u -> Rabs (dF u) <= M) -> (forall u, between a b u -> m * Rabs (u - z) <= Rabs (F u)) -> Rabs (x - z) < xacc * (1 + M / m).
Proof.
  intros HF (p & q & NP & PQ & B1 & B2 & B3 & G). assert (NE := neg_pos fd p q NP PQ).
  assert (IN : forall u, between p q u -> between a b u) by (intros u Bu; unfold between in *; destruct B1, B2, Bu; lra).
  assert (Fp : F p < 0). { destruct (HF p B1) as (E & _). rewrite E in NP. destruct NP as [NP|(r & NP & Hr)]; [discriminate|]. cbn [fst] in NP. injection NP as ->. exact Hr. }
  assert (Fq : 0 < F q). { destruct (HF q B2) as (E & _). rewrite E in PQ. destruct PQ as [PQ|(r & PQ & Hr)]; [discriminate|]. cbn [fst] in PQ. injection PQ as ->. exact Hr. }
  destruct (ivt F p q NE) as (z & Bz & Ez); auto; [intros u Bu; apply HF, IN, Bu|]. exists z. split; [auto|]. split; [exact Ez|]. intros m M Hm HD HL.
  assert (M0 : 0 <= M) by (eapply Rle_trans; [apply Rabs_pos|apply (HD p B1)]). assert (MM : 0 <= M / m) by (apply Rmult_le_pos; [lra|left; now apply Rinv_0_lt_compat]).
  destruct G as [(-> & W)|(t & f & df & T & E & D0 & -> & W)].
  - assert (XA : 0 <= xacc) by (pose proof (Rabs_pos (q - p)); lra). assert (Rabs ((p + q) / 2 - z) < xacc); [|nra]. apply Rabs_def1; apply Rabs_def2 in W; destruct Bz; lra.
  - assert (BT : between a b t) by (destruct T; subst; auto). destruct (HF t BT) as (E' & _). rewrite E' in E. injection E as <- <-. pose proof (HL t BT) as L. pose proof (HD t BT) as D.
    assert (XA : 0 < xacc) by (pose proof (Rabs_pos (F t / dF t)); lra).
    assert (FT : Rabs (F t) <= Rabs (F t / dF t) * M). { replace (F t) with (F t / dF t * dF t) at 1 by (field; auto). rewrite Rabs_mult. apply Rmult_le_compat_l; [apply Rabs_pos|exact D]. }
    assert (Rabs (t - z) <= xacc * (M / m)). { apply (Rmult_le_reg_l m); [exact Hm|]. replace (m * (xacc * (M / m))) with (xacc * M) by (field; lra). eapply Rle_trans; [exact L|]. eapply Rle_trans; [exact FT|]. apply Rmult_le_compat_r; lra. }
    replace (t - F t / dF t - z) with ((t - z) + - (F t / dF t)) by ring. eapply Rle_lt_trans; [apply Rabs_triang|]. rewrite Rabs_Ropp. lra.
Qed.
(** Without such bounds xacc is not the accuracy: for x^3 with its derivative, bracket -1, 2, guess 1 and xacc 1/2 the answer is 2/3 after one iteration, but the only root is 0. *)
Definition cube : R -> fv * fv := fun x => (Fin (x ^ 3), Fin (3 * x ^ 2)).
Lemma cube_run MAXIT : (1 <= MAXIT)%Z -> rtsafe_itsP (Fin 1) cube (Fin (- 1)) (Fin 2) MAXIT (1 / 2) = (1%Z, Some (2 / 3)).
Proof.
  intros HM. cbn [rtsafe_itsP cube fst fle0 fge0 feq0 flt0]. destruct (Rle_dec ((- 1) ^ 3) 0) as [|N]; [|exfalso; apply N; lra]. destruct (Rle_dec 0 (2 ^ 3)) as [|N]; [|exfalso; apply N; lra]. cbn [andb orb negb].
  destruct (Req_EM_T ((- 1) ^ 3) 0) as [Q|_]; [exfalso; lra|]. destruct (Req_EM_T (2 ^ 3) 0) as [Q|_]; [exfalso; lra|]. destruct (Rlt_dec ((- 1) ^ 3) 0) as [_|N]; [|exfalso; apply N; lra].
  unfold rts_start. destruct (Rle_dec (- 1) 1) as [_|N]; [|exfalso; apply N; lra]. destruct (Rle_dec 1 2) as [_|N]; [|exfalso; apply N; lra].
  replace (Rabs (2 - - 1)) with 3 by (rewrite Rabs_pos_eq; lra). destruct (Z.to_nat MAXIT) as [|n] eqn:EN; [lia|]. cbn [rts_loop cube fst snd].
  destruct (Req_EM_T (1 ^ 3) 0) as [Q|_]; [exfalso; lra|]. destruct (Rlt_dec (1 ^ 3) 0) as [Q|_]; [exfalso; lra|]. cbv zeta.
  destruct (Rlt_dec (Rabs (3 * (3 * 1 ^ 2))) (Rabs (2 * 1 ^ 3))) as [Q|_]; [exfalso; rewrite !Rabs_pos_eq in Q by lra; lra|].
  replace (1 - 1 ^ 3 / (3 * 1 ^ 2)) with (2 / 3) by field. destruct (Req_EM_T 1 (2 / 3)) as [Q|_]; [exfalso; lra|]. destruct (Rlt_dec 0 ((2 / 3 - 1) * (2 / 3 - - 1))) as [Q|_]; [exfalso; lra|].
  destruct (Rlt_dec (Rabs (1 ^ 3 / (3 * 1 ^ 2))) (1 / 2)) as [_|N]; [reflexivity|]. exfalso. apply N. rewrite Rabs_pos_eq; lra.
Qed.
Theorem C118_accuracy_refuted : exists F dF x0 a b MAXIT xacc x, (forall u, derivable_pt_lim F u (dF u)) /\ (forall z, F z = 0 -> z = 0) /\
  rtsafe_itsP (Fin x0) (fun u => (Fin (F u), Fin (dF u))) (Fin a) (Fin b) MAXIT xacc = (1%Z, Some x) /\ xacc < Rabs (x - 0) /\ (1 < MAXIT)%Z.
Proof.
  exists (fun u => u ^ 3), (fun u => 3 * u ^ 2), 1, (- 1), 2, 10%Z, (1 / 2), (2 / 3). split; [|split; [|split; [|split]]].
  - intros u. replace (3 * u ^ 2) with (INR 3 * u ^ pred 3) by (cbn [INR pred]; ring). apply derivable_pt_lim_pow.
  - intros z Hz. apply Rmult_integral in Hz as [|Hz]; auto. apply Rmult_integral in Hz as [|Hz]; auto. lra.
  - apply cube_run. lia.
  - rewrite Rabs_pos_eq; lra.
  - lia.
Qed.
(** ** the hypotheses are met by 3 x + 1 on -1, 2: it is bracketed, the bracket is shorter than 2^6 / 16, and 3 |u - z| <= |F u| *)
Example C118_ex : let fd := fun u => (Fin (3 * u + 1), Fin 3) in exists c x, rtsafe_itsP NaN fd (Fin (- 1)) (Fin 2) 84 (1 / 16) = (c, Some x) /\ (0 <= c <= 84)%Z /\ Rabs (x - - (1 / 3)) < 1 / 16 * (1 + 3 / 3).
Proof.
  intros fd. destruct (rtsafe_itsP NaN fd (Fin (- 1)) (Fin 2) 84 (1 / 16)) as (c, o) eqn:E.
  assert (B : bracketed (fst (fd (- 1))) (fst (fd 2))) by (left; split; left; right; eexists; (split; [reflexivity|lra])).
  destruct (C118_converges NaN fd (- 1) 2 84 (1 / 16) 6 c o ltac:(lra) ltac:(lia) ltac:(rewrite Rabs_pos_eq; cbn [pow]; lra) ltac:(lia) B) as (Hc & x & -> & _ & G); auto; [intros; eexists; reflexivity|].
  exists c, x. split; [reflexivity|]. split; [exact Hc|]. destruct G as [Z0|G].
  - unfold zero, fd in Z0. cbn [fst] in Z0. injection Z0 as Z0. replace (x - - (1 / 3)) with 0 by lra. rewrite Rabs_R0. lra.
  - destruct (C118_root fd (fun u => 3 * u + 1) (fun _ => 3) (- 1) 2 (1 / 16) x) as (z & _ & Z0 & Hz); auto.
    + intros u _. split; [reflexivity|]. reg.
    + replace (- (1 / 3)) with z by lra. apply Hz; [lra|intros; rewrite Rabs_pos_eq; lra|]. intros u _. replace (3 * u + 1) with (3 * (u - z)) by lra. rewrite Rabs_mult, (Rabs_pos_eq 3) by lra. lra.
Qed.
Print Assumptions C118_result.
Print Assumptions C118_converges.
Print Assumptions C118_root.
Print Assumptions C118_accuracy_refuted.
