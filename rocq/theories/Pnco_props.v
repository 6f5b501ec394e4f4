(** C127: post-Newtonian equations of a circular orbit with spins. *)
From Verif Require Import Rutil Pnco_model.
From Coq Require Import Lia FunctionalExtensionality.
From Coquelicot Require Import Coquelicot.
Local Open Scope R_scope.
Definition nrm2 (y : nat -> R) (a : nat) : R := y (a + 1)%nat * y (a + 1)%nat + y (a + 2)%nat * y (a + 2)%nat + y (a + 3)%nat * y (a + 3)%nat.
(** a curve that solves the equations for ta <= t <= tb *)
Definition solves (m1 m2 : R) (P : pnpar) (ta tb : R) (Y : R -> nat -> R) : Prop := forall t i, ta <= t <= tb -> (1 <= i <= 11)%nat -> is_derive (fun t => Y t i) t (snd (derivs m1 m2 P (Y t)) i).
Lemma nrm_const (Y : R -> nat -> R) a (d : R -> nat -> R) ta tb : (forall t i, ta <= t <= tb -> (1 <= i <= 3)%nat -> is_derive (fun t => Y t (a + i)%nat) t (d t i)) ->
  (forall t, Y t (a + 1)%nat * d t 1%nat + Y t (a + 2)%nat * d t 2%nat + Y t (a + 3)%nat * d t 3%nat = 0) -> forall t0 t1, ta <= t0 <= tb -> ta <= t1 <= tb -> nrm2 (Y t0) a = nrm2 (Y t1) a.
Proof.
  intros D Z. assert (DD : forall t, ta <= t <= tb -> is_derive (fun t => nrm2 (Y t) a) t zero).
  { intros t T. unfold nrm2. evar_last. apply (is_derive_plus (fun t => Y t (a + 1)%nat * Y t (a + 1)%nat + Y t (a + 2)%nat * Y t (a + 2)%nat)). apply (is_derive_plus (fun t => Y t (a + 1)%nat * Y t (a + 1)%nat)).
    all: try (apply (is_derive_mult (fun t => Y t _) (fun t => Y t _)); [apply D; [exact T|lia]|apply D; [exact T|lia]|intros; apply Rmult_comm]).
    unfold plus, mult, zero; cbn. specialize (Z t). lra. }
  assert (LT : forall u v, ta <= u -> v <= tb -> u < v -> nrm2 (Y u) a = nrm2 (Y v) a). { intros u v A B L. apply (eq_is_derive (fun t => nrm2 (Y t) a) u v); [intros; apply DD; lra|exact L]. }
  intros t0 t1 T0 T1. destruct (Rtotal_order t0 t1) as [L|[->|L]]; [apply LT; lra|reflexivity|symmetry; apply LT; lra].
Qed.
(** Along every solution the lengths of both spins and of the direction of the orbital angular momentum are constant *)
Theorem C127_norms m1 m2 P ta tb Y : solves m1 m2 P ta tb Y -> forall t0 t1, ta <= t0 <= tb -> ta <= t1 <= tb -> nrm2 (Y t0) 1 = nrm2 (Y t1) 1 /\ nrm2 (Y t0) 4 = nrm2 (Y t1) 4 /\ nrm2 (Y t0) 7 = nrm2 (Y t1) 7.
Proof.
  intros S t0 t1 T0 T1. split; [|split].
  - apply (nrm_const Y 1 (fun t i => snd (derivs m1 m2 P (Y t)) (1 + i)%nat) ta tb); [intros t i T I; apply S; [exact T|lia]| |exact T0|exact T1].
    intros t. cbn [derivs snd rates rate Nat.add]. replace (renorm (Y t) 2%nat) with (Y t 2%nat) by reflexivity. replace (renorm (Y t) 3%nat) with (Y t 3%nat) by reflexivity. replace (renorm (Y t) 4%nat) with (Y t 4%nat) by reflexivity. ring.
  - apply (nrm_const Y 4 (fun t i => snd (derivs m1 m2 P (Y t)) (4 + i)%nat) ta tb); [intros t i T I; apply S; [exact T|lia]| |exact T0|exact T1].
    intros t. cbn [derivs snd rates rate Nat.add]. replace (renorm (Y t) 5%nat) with (Y t 5%nat) by reflexivity. replace (renorm (Y t) 6%nat) with (Y t 6%nat) by reflexivity. replace (renorm (Y t) 7%nat) with (Y t 7%nat) by reflexivity. ring.
  - apply (nrm_const Y 7 (fun t i => snd (derivs m1 m2 P (Y t)) (7 + i)%nat) ta tb); [intros t i T I; apply S; [exact T|lia]| |exact T0|exact T1].
    intros t. cbn [derivs snd rates rate Nat.add].
    assert (E : forall i, (8 <= i <= 10)%nat -> renorm (Y t) i = Y t i * / sqrt (Y t 8%nat * Y t 8%nat + Y t 9%nat * Y t 9%nat + Y t 10%nat * Y t 10%nat)).
    { intros i I. unfold renorm. destruct (Nat.leb_spec 8 i); [|lia]. destruct (Nat.leb_spec i 10); [|lia]. reflexivity. }
    rewrite (E 8%nat), (E 9%nat), (E 10%nat) by lia. ring.
Qed.
Print Assumptions C127_norms.
(** The direction that is returned in y is a unit vector, nothing else in y is changed *)
Theorem C127_unit m1 m2 P y : 0 < nrm2 y 7 -> let y' := fst (derivs m1 m2 P y) in nrm2 y' 7 = 1 /\ (forall i, (8 <= i <= 10)%nat -> y i = sqrt (nrm2 y 7) * y' i) /\ (forall i, (i < 8 \/ 10 < i)%nat -> y' i = y i).
Proof.
  intros Q. cbn [derivs fst]. change (nrm2 y 7) with (y 8%nat * y 8%nat + y 9%nat * y 9%nat + y 10%nat * y 10%nat) in *. set (q := y 8%nat * y 8%nat + y 9%nat * y 9%nat + y 10%nat * y 10%nat) in *.
  pose proof (sqrt_lt_R0 q Q) as SP. pose proof (sqrt_sqrt q ltac:(lra)) as SS.
  assert (E : forall i, (8 <= i <= 10)%nat -> renorm y i = y i / sqrt q). { intros i I. unfold renorm. destruct (Nat.leb_spec 8 i); [|lia]. destruct (Nat.leb_spec i 10); [|lia]. reflexivity. }
  split; [|split].
  - unfold nrm2. cbn [Nat.add]. rewrite !E by lia. transitivity (q / (sqrt q * sqrt q)); [unfold q at 7; field; lra|rewrite SS; field; lra].
  - intros i I. rewrite E by exact I. field. lra.
  - intros i I. unfold renorm. destruct (Nat.leb_spec 8 i); destruct (Nat.leb_spec i 10); cbn [andb]; try reflexivity. lia.
Qed.
Print Assumptions C127_unit.
Section M.
Variables (m1 m2 : R) (P : pnpar).
Hypothesis (P1 : 0 < m1) (P2 : 0 < m2).
Lemma vP y : 0 < v1 m1 m2 y. Proof. apply exp_pos. Qed.
(** The precession moves no angular momentum out of the system: the rates of both spins and of the Newtonian orbital angular momentum mu m / v times its direction add up to zero *)
Theorem C127_total y i : (1 <= i <= 3)%nat -> let d := snd (derivs m1 m2 P y) in let v := Rpower ((m1 + m2) * y 1%nat) (1 / 3) in
  d (1 + i)%nat + d (4 + i)%nat + m1 * m2 / v * d (7 + i)%nat = 0.
Proof.
  intros I. cbn [derivs snd]. change (Rpower ((m1 + m2) * y 1%nat) (1 / 3)) with (v1 m1 m2 (renorm y)). set (w := renorm y). pose proof (vP w) as V.
  assert (CS : i = 1%nat \/ i = 2%nat \/ i = 3%nat) by lia. destruct CS as [-> | [-> | ->]]; cbn [Nat.add rates rate]; unfold LNS1, LNS2, LNS, c15, c16, c17, c18, c19, c20, pnu, pm; cbn [Nat.add]; replace 0.5 with (/ 2) by lra; field; repeat split; lra.
Qed.
End M.
Print Assumptions C127_total.
(** ** exchange of the two bodies *)
Definition swap (y : nat -> R) (i : nat) : R := match i with 2%nat => y 5%nat | 3%nat => y 6%nat | 4%nat => y 7%nat | 5%nat => y 2%nat | 6%nat => y 3%nat | 7%nat => y 4%nat | _ => y i end.
Lemma pm_s m1 m2 : pm m2 m1 = pm m1 m2. Proof. unfold pm. ring. Qed.
Lemma nu_s m1 m2 : pnu m2 m1 = pnu m1 m2. Proof. unfold pnu. rewrite (pm_s m1 m2). unfold Rdiv. ring. Qed.
Lemma c3_s m1 m2 : c3 m2 m1 = c4 m1 m2. Proof. unfold c3, c4. now rewrite (nu_s m1 m2), (pm_s m1 m2). Qed.
Lemma c4_s m1 m2 : c4 m2 m1 = c3 m1 m2. Proof. unfold c3, c4. now rewrite (nu_s m1 m2), (pm_s m1 m2). Qed.
Lemma c7_s m1 m2 : c7 m2 m1 = c7 m1 m2. Proof. unfold c7. rewrite (nu_s m1 m2). unfold Rdiv. ring. Qed.
Lemma c8_s m1 m2 : c8 m2 m1 = c8 m1 m2. Proof. unfold c8. rewrite (nu_s m1 m2). unfold Rdiv. ring. Qed.
Lemma pd_s m1 m2 : pd m2 m1 = - pd m1 m2. Proof. unfold pd. rewrite (pm_s m1 m2). unfold Rdiv. ring. Qed.
Lemma c_s m1 m2 : c1 m2 m1 = c1 m1 m2 /\ c2 m2 m1 = c2 m1 m2 /\ c6 m2 m1 = c6 m1 m2 /\ c9 m2 m1 = c9 m1 m2 /\ c11 m2 m1 = c11 m1 m2 /\ c12 m2 m1 = c12 m1 m2 /\ c14 m2 m1 = c14 m1 m2.
Proof. unfold c1, c2, c6, c9, c11, c12, c14. rewrite (nu_s m1 m2). repeat split. Qed.
Lemma c_t m1 m2 : c15 m2 m1 = c15 m1 m2 /\ c17 m2 m1 = c17 m1 m2 /\ c19 m2 m1 = c19 m1 m2 /\ c20 m2 m1 = c20 m1 m2.
Proof. unfold c15, c17, c19, c20. rewrite (nu_s m1 m2), (pm_s m1 m2). repeat split. Qed.
Lemma t4_s nu d v V2 V3 V4 V5 V6 V7 s1 a1 s2 a2 s3 a3 ss aa sa : t4 nu (- d) v V2 V3 V4 V5 V6 V7 s1 (- a1) s2 a2 s3 (- a3) ss aa (- sa) = t4 nu d v V2 V3 V4 V5 V6 V7 s1 a1 s2 a2 s3 a3 ss aa sa.
Proof. unfold t4, Rdiv. ring. Qed.
Lemma t4b_s nu d v V2 V3 V4 V5 V6 V7 s1 a1 s2 a2 s3 a3 ss aa sa : t4_bug nu (- d) v V2 V3 V4 V5 V6 V7 s1 (- a1) s2 a2 s3 (- a3) ss aa (- sa) = t4_bug nu d v V2 V3 V4 V5 V6 V7 s1 a1 s2 a2 s3 a3 ss aa sa.
Proof. unfold t4_bug, Rdiv. ring. Qed.
Section EX.
Variables (m1 m2 : R) (P : pnpar) (y : nat -> R).
Lemma v1_s : v1 m2 m1 (swap y) = v1 m1 m2 y. Proof. unfold v1, om. now rewrite (pm_s m1 m2). Qed.
Lemma v3_s : v3 m2 m1 (swap y) = v3 m1 m2 y. Proof. unfold v3, om. now rewrite (pm_s m1 m2). Qed.
Lemma chi_s f : (forall nu d v V2 V3 V4 V5 V6 V7 s1 a1 s2 a2 s3 a3 ss aa sa, f nu (- d) v V2 V3 V4 V5 V6 V7 s1 (- a1) s2 a2 s3 (- a3) ss aa (- sa) = f nu d v V2 V3 V4 V5 V6 V7 s1 a1 s2 a2 s3 a3 ss aa sa) -> with_chi m2 m1 P (swap y) f = with_chi m1 m2 P y f.
Proof.
  intros F. unfold with_chi. cbv zeta. rewrite <- F. unfold v7, v6, v5, v4, v2. unfold LS1, LS2, SS. change (dot (swap y) 7 1) with (dot y 7 4). change (dot (swap y) 7 4) with (dot y 7 1). change (dot (swap y) 1 1) with (dot y 4 4). change (dot (swap y) 4 4) with (dot y 1 1).
  replace (dot (swap y) 1 4) with (dot y 1 4) by (unfold dot; cbn [Nat.add swap]; ring). rewrite (nu_s m1 m2), (pd_s m1 m2), !v1_s, !v3_s. unfold Rdiv.
  replace (m2 * m2 * m1 * m1) with (m1 * m1 * m2 * m2) by ring. f_equal; ring.
Qed.
Lemma omfac_s : omfac m2 m1 P (swap y) = omfac m1 m2 P y.
Proof.
  unfold omfac. cbv zeta. destruct (c_s m1 m2) as (E1 & E2 & E6 & E9 & E11 & E12 & E14). rewrite (c3_s m1 m2), (c4_s m1 m2), (c7_s m1 m2), (c8_s m1 m2), E2, E6, E9, E11, E12, E14. unfold v7, v6, v5, v4, v2. rewrite !v1_s, !v3_s.
  unfold LS1, LS2, SS. change (dot (swap y) 7 1) with (dot y 7 4). change (dot (swap y) 7 4) with (dot y 7 1). replace (dot (swap y) 1 4) with (dot y 1 4) by (unfold dot; cbn [Nat.add swap]; ring).
  replace (c4 m1 m2 * dot y 7 4 + c3 m1 m2 * dot y 7 1) with (c3 m1 m2 * dot y 7 1 + c4 m1 m2 * dot y 7 4) by ring. replace (c8 m1 m2 * dot y 7 4 * dot y 7 1) with (c8 m1 m2 * dot y 7 1 * dot y 7 4) by ring.
  destruct (eomtype P); try reflexivity; apply chi_s; [apply t4b_s|apply t4_s].
Qed.
Lemma LNS1_s i : (1 <= i <= 3)%nat -> LNS1 m2 m1 (swap y) i = LNS2 m1 m2 y i.
Proof. intros I. unfold LNS1, LNS2. destruct (c_t m1 m2) as (A & B & _ & _). rewrite A, B, (nu_s m1 m2), v1_s. change (c16 m2 m1) with (c18 m1 m2). assert (CS : i = 1%nat \/ i = 2%nat \/ i = 3%nat) by lia. destruct CS as [-> | [-> | ->]]; reflexivity. Qed.
Lemma LNS2_s i : (1 <= i <= 3)%nat -> LNS2 m2 m1 (swap y) i = LNS1 m1 m2 y i.
Proof. intros I. unfold LNS1, LNS2. destruct (c_t m1 m2) as (A & B & _ & _). rewrite A, B, (nu_s m1 m2), v1_s. change (c18 m2 m1) with (c16 m1 m2). assert (CS : i = 1%nat \/ i = 2%nat \/ i = 3%nat) by lia. destruct CS as [-> | [-> | ->]]; reflexivity. Qed.
Lemma LNS_s i : (1 <= i <= 3)%nat -> LNS m2 m1 (swap y) i = LNS m1 m2 y i.
Proof. intros I. unfold LNS. destruct (c_t m1 m2) as (_ & _ & A & _). rewrite A, v1_s. change (c18 m2 m1) with (c16 m1 m2). change (c16 m2 m1) with (c18 m1 m2). unfold LS1, LS2. change (dot (swap y) 7 1) with (dot y 7 4). change (dot (swap y) 7 4) with (dot y 7 1). assert (CS : i = 1%nat \/ i = 2%nat \/ i = 3%nat) by lia. destruct CS as [-> | [-> | ->]]; cbn [Nat.add swap]; ring. Qed.
Lemma rate_s i : (1 <= i <= 10)%nat -> rate m2 m1 P (swap y) i = swap (rate m1 m2 P y) i.
Proof.
  intros I. destruct (c_s m1 m2) as (E1 & _). destruct (c_t m1 m2) as (_ & _ & _ & E20).
  assert (CS : i = 1%nat \/ i = 2%nat \/ i = 3%nat \/ i = 4%nat \/ i = 5%nat \/ i = 6%nat \/ i = 7%nat \/ i = 8%nat \/ i = 9%nat \/ i = 10%nat) by lia.
  repeat (destruct CS as [-> | CS]); [..|subst i]; cbn [swap rate]; unfold v5, v4, v2, v6; rewrite ?E1, ?E20, ?v3_s, ?v1_s, ?omfac_s, ?LNS1_s, ?LNS2_s, ?LNS_s by lia; reflexivity.
Qed.
End EX.
(** Numbering the two bodies the other way round changes nothing but the numbers: all eight equations for the frequency, the precession and the phase *)
Theorem C127_exchange m1 m2 P y i : (1 <= i <= 11)%nat -> snd (derivs m2 m1 P (swap y)) i = swap (snd (derivs m1 m2 P y)) i.
Proof.
  intros I. cbn [derivs snd]. replace (renorm (swap y)) with (swap (renorm y)). 2: { apply FunctionalExtensionality.functional_extensionality. intros k. do 11 (destruct k as [|k]; [reflexivity|]). unfold renorm. cbn [Nat.leb andb swap]. reflexivity. }
  set (w := renorm y). destruct (Nat.eq_dec i 11) as [->|N].
  - cbn [rates swap]. rewrite !rate_s by lia. reflexivity.
  - assert (C : rates m2 m1 P (swap w) i = rate m2 m1 P (swap w) i) by (do 12 (destruct i as [|i]; [try reflexivity; lia|]); lia). rewrite C, rate_s by lia. do 12 (destruct i as [|i]; [try reflexivity; lia|]). lia.
Qed.
Print Assumptions C127_exchange.
Theorem C127_exchange_r m1 m2 P y : compute_r m2 m1 P (swap y) = compute_r m1 m2 P y.
Proof.
  unfold compute_r. cbv zeta. change (om m2 m1 (swap y)) with (v3 m2 m1 (swap y)). rewrite v3_s, (nu_s m1 m2), (pm_s m1 m2). change (v3 m1 m2 y) with (om m1 m2 y). unfold LS1, LS2, SS. change (dot (swap y) 7 1) with (dot y 7 4). change (dot (swap y) 7 4) with (dot y 7 1). replace (dot (swap y) 1 4) with (dot y 1 4) by (unfold dot; cbn [Nat.add swap]; ring). unfold Rdiv. ring.
Qed.
Print Assumptions C127_exchange_r.
