(** C79: the tables hold the associated Legendre functions and the spherical harmonics. *)
From Coq Require Import Reals Lra Lia ZArith List Factorial.
From Verif Require Import Base Loops Sparse_model Sparse_proofs Ylm_model Ylm_spec Ylm_math Ylm_proofs.
Open Scope R_scope.

(** the specification determines one value *)
Theorem C79_unique l m x : exists! v, is_Plm l m x v.
Proof. exists (PL l m x). split; [now apply is_Plm_rd|]. intros v H. apply is_Plm_rd in H. now rewrite H. Qed.
Print Assumptions C79_unique.

(** a single value *)
Theorem C79_legendre l m x : (0 <= m <= l)%Z -> Rabs x <= 1 -> exists v, PLegendre l m x = Ok v /\ is_Plm (Z.to_nat l) (Z.to_nat m) x v.
Proof.
  intros H X. exists (PL (Z.to_nat l) (Z.to_nat m) x). split; [|now apply is_Plm_rd].
  rewrite <- (Z2Nat.id l), <- (Z2Nat.id m) at 1 by lia. apply PLegendre_ok; auto. lia.
Qed.
Theorem C79_refused l m x : (m < 0)%Z \/ (l < m)%Z \/ 1 < Rabs x -> PLegendre l m x = Err.
Proof.
  intros H. unfold PLegendre. destruct (Z.ltb_spec m 0); [reflexivity|]. destruct (Z.ltb_spec l m); [reflexivity|]. cbn [orb]. destruct (Rlt_dec 1 (Rabs x)); [reflexivity|].
  exfalso. destruct H as [H|[H|H]]; [lia|lia|auto].
Qed.
Print Assumptions C79_legendre.
(** P_2^1(x) = -3 x sqrt(1-x^2), P_3^0(x) = (5x^3-3x)/2 *)
Example C79_ex x : Rabs x <= 1 -> PLegendre 2 1 x = Ok (-3 * x * sqrt (1 - x ^ 2)) /\ PLegendre 3 0 x = Ok ((5 * x ^ 3 - 3 * x) / 2).
Proof.
  intros X. split.
  - destruct (C79_legendre 2 1 x) as (v & E & H); [lia|auto|]. rewrite E. f_equal. apply is_Plm_rd in H. rewrite H. change (Z.to_nat 1) with 1%nat; change (Z.to_nat 2) with 2%nat; change (Z.to_nat 3) with 3%nat; change (Z.to_nat 0) with 0%nat. cbn. unfold rodrigues. cbn. field.
  - destruct (C79_legendre 3 0 x) as (v & E & H); [lia|auto|]. rewrite E. f_equal. apply is_Plm_rd in H. rewrite H. change (Z.to_nat 1) with 1%nat; change (Z.to_nat 2) with 2%nat; change (Z.to_nat 3) with 3%nat; change (Z.to_nat 0) with 0%nat. cbn. unfold rodrigues. cbn. field.
Qed.

(** the table: one entry for every 0 <= m <= l <= lmax, in the order of increasing l and m; nothing else is changed *)
Theorem C79_table lmax x P : Rabs x <= 1 -> (entry lmax lmax < List.length P)%nat ->
  exists P', set_PlmTab lmax x P = Ok P' /\ List.length P' = List.length P /\
    (forall l m, (m <= l <= lmax)%nat -> exists v, nth_error P' (entry l m) = Some v /\ is_Plm l m x v /\ Plm_from_Tab P' l m = Ok v) /\
    (forall i, (entry lmax lmax < i)%nat -> nth_error P' i = nth_error P i).
Proof.
  intros X L. rewrite entry_ind in L. assert (TS : tabsize lmax = S (ind_lm lmax lmax)) by (rewrite tabsize_ind, ind_S, (ind_m lmax lmax); lia).
  destruct (table_ok lmax x P X) as (P' & E & L' & H1 & H2); [lia|]. exists P'. split; auto. split; auto. split.
  - intros l m Hm. exists (PL l m x). rewrite entry_ind. assert (B : (ind_lm l m < List.length P')%nat). { pose proof (ind_bound l m lmax). lia. }
    split; [|split; [now apply is_Plm_rd|]]. { rewrite (nth_error_nth' P' 0 B). now rewrite H1. } unfold Plm_from_Tab. rewrite (rd_ok _ _ 0 B). now rewrite H1.
  - intros i Hi. rewrite entry_ind in Hi. destruct (Nat.lt_ge_cases i (List.length P)) as [B|B].
    + rewrite (nth_error_nth' P' 0) by lia. rewrite (nth_error_nth' P 0) by lia. rewrite H2; auto. lia.
    + assert (nth_error P' i = None) by (apply nth_error_None; lia). assert (nth_error P i = None) by (apply nth_error_None; lia). congruence.
Qed.
Print Assumptions C79_table.
(** the array made by alloc_Plm_Tab is just large enough *)
Theorem C79_alloc lmax : List.length (alloc_Plm_Tab lmax) = S (entry lmax lmax).
Proof. rewrite entry_ind. unfold alloc_Plm_Tab. rewrite repeat_length. unfold ind_lm. lia. Qed.

Lemma from_tabs_ok lmax th ph A B l m : (Z.abs_nat m <= l <= lmax)%nat -> (tabsize lmax <= List.length A)%nat -> (tabsize lmax <= List.length B)%nat ->
  (forall l m, (m <= l <= lmax)%nat -> nth (ind_lm l m) A 0 = Yr l m th ph /\ nth (ind_lm l m) B 0 = Yi l m th ph) ->
  exists re im, Ylm_from_Tabs A B l m = Ok (re, im) /\ is_Ylm l m th ph re im.
Proof.
  intros H LA LB T. unfold Ylm_from_Tabs. cbv zeta. replace (Z.to_nat (Z.abs m)) with (Z.abs_nat m) by lia.
  pose proof (ind_bound l (Z.abs_nat m) lmax ltac:(lia) ltac:(lia)). rewrite (rd_ok A _ 0), (rd_ok B _ 0) by lia. cbn [rbind]. destruct (T l (Z.abs_nat m) H) as [-> ->].
  destruct (m <? 0)%Z eqn:E; do 2 eexists; (split; [reflexivity|]); exists (Yr l (Z.abs_nat m) th ph), (Yi l (Z.abs_nat m) th ph); (split; [apply Yr_spec|]); rewrite E.
  - rewrite pm_mod. split; ring.
  - auto.
Qed.
(** the tables of spherical harmonics, for m of both signs *)
Theorem C79_ylm lmax th ph A B : (entry lmax lmax < List.length A)%nat -> (entry lmax lmax < List.length B)%nat ->
  exists A' B', set_YlmTabs lmax th ph A B = Ok (A', B') /\
    forall l m, (Z.abs_nat m <= l <= lmax)%nat -> exists re im, Ylm_from_Tabs A' B' l m = Ok (re, im) /\ is_Ylm l m th ph re im.
Proof.
  intros LA LB. rewrite entry_ind in LA, LB. assert (TS : tabsize lmax = S (ind_lm lmax lmax)) by (rewrite tabsize_ind, ind_S, (ind_m lmax lmax); lia).
  destruct (YlmTabs_ok lmax th ph A B) as (A' & B' & E & L1 & L2 & H); [lia|lia|]. exists A', B'. split; auto. intros l m Hm. eapply from_tabs_ok; eauto.
Qed.
Print Assumptions C79_ylm.
Theorem C79_slowly l m th ph : (Z.abs_nat m <= l)%nat -> exists re im, Ylm_slowly l m th ph = Ok (re, im) /\ is_Ylm l m th ph re im.
Proof.
  intros H. unfold Ylm_slowly. destruct (C79_ylm l th ph (alloc_Plm_Tab l) (alloc_Plm_Tab l)) as (A' & B' & E & T); [rewrite C79_alloc; lia..|].
  rewrite E. cbn [rbind]. apply T. lia.
Qed.
Print Assumptions C79_slowly.
(** Y_1^0 = sqrt(3/(4 PI)) cos(theta) *)
Example C79_ylm_ex th ph : exists im, Ylm_slowly 1 0 th ph = Ok (sqrt (3 / (4 * PI)) * cos th, im).
Proof.
  destruct (C79_slowly 1 0 th ph) as (re & im & E & a & b & (P & HP & H1 & H2) & Hr & Hi); [cbn; lia|]. exists im. rewrite E. do 2 f_equal. rewrite Hr, H1.
  apply is_Plm_rd in HP. rewrite HP. change (Z.abs_nat 0) with 0%nat. change (INR (2 * 1 + 1)) with (1 + 1 + 1). cbn [Nat.sub Nat.add fact INR Nat.mul pow]. rewrite Rmult_0_l, cos_0.
  replace ((1 + 1 + 1) / (4 * PI) * (1 / 1)) with (3 / (4 * PI)) by (pose proof PI_neq0; field; auto).
  cbn [rd_k]. unfold rodrigues. cbn. field.
Qed.
