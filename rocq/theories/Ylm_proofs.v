From Coq Require Import Reals Lra Lia ZArith List Factorial.
From Verif Require Import Base Loops Sparse_model Sparse_proofs Ylm_model Ylm_spec Ylm_math.
Open Scope R_scope.

(** ** index of the tables *)
Lemma ind_S l m : ind_lm (S l) m = (ind_lm l 0 + l + 1 + m)%nat.
Proof.
  unfold ind_lm. replace (S l * (S l + 1))%nat with (l * (l + 1) + (l + 1) * 2)%nat by lia. rewrite Nat.div_add by lia. lia.
Qed.
Lemma ind_m l m : ind_lm l m = (ind_lm l 0 + m)%nat.
Proof. unfold ind_lm. lia. Qed.
Lemma ind_mono l l' : (l < l')%nat -> (ind_lm l l < ind_lm l' 0)%nat.
Proof.
  intros H. induction l' as [|l' IH]; [lia|]. rewrite ind_S. destruct (Nat.eq_dec l l') as [->|N]; [rewrite (ind_m l' l'); lia|]. assert (l < l')%nat by lia. specialize (IH H0). lia.
Qed.
Lemma ind_inj l m l' m' : (m <= l)%nat -> (m' <= l')%nat -> ind_lm l m = ind_lm l' m' -> l = l' /\ m = m'.
Proof.
  intros A B E. rewrite (ind_m l m), (ind_m l' m') in E. destruct (Nat.lt_trichotomy l l') as [H|[H|H]].
  - apply ind_mono in H. rewrite (ind_m l l) in H. lia.
  - subst. split; auto. lia.
  - apply ind_mono in H. rewrite (ind_m l' l') in H. lia.
Qed.
Definition tabsize (lmax : nat) : nat := ((lmax * (lmax + 1)) / 2 + lmax + 1)%nat.
Lemma tabsize_ind lmax : tabsize lmax = ind_lm (S lmax) 0.
Proof. rewrite ind_S. unfold tabsize, ind_lm. lia. Qed.
Lemma ind_bound l m lmax : (m <= l)%nat -> (l <= lmax)%nat -> (ind_lm l m < tabsize lmax)%nat.
Proof. intros A B. rewrite tabsize_ind. pose proof (ind_mono l (S lmax) ltac:(lia)). rewrite (ind_m l l) in H. rewrite (ind_m l m). lia. Qed.

(** ** the value computed *)
Definition PL (l m : nat) (x : R) : R := (-1) ^ m * sqrt (1 - x ^ 2) ^ m * rd_k l (l + m) x.
Lemma somx2_eq x : sqrt ((1 - x) * (1 + x)) = sqrt (1 - x ^ 2).
Proof. f_equal. ring. Qed.
Lemma PL_SS m x : PL (S m) (S m) x = PL m m x * (- (2 * INR m + 1) * sqrt (1 - x ^ 2)).
Proof.
  unfold PL. replace (S m + S m)%nat with (2 * S m)%nat by lia. replace (m + m)%nat with (2 * m)%nat by lia. rewrite rd_k_top, plus_INR, mult_INR. cbn [pow INR]. ring.
Qed.
Lemma PL_00 x : PL 0 0 x = 1.
Proof. unfold PL. cbn [pow Nat.add]. rewrite rd_k_0. unfold rodrigues. cbn. field. Qed.
Lemma Pmm_ok m x : Pmm_of m x = Ok (PL m m x).
Proof.
  unfold Pmm_of.
  destruct (for_nat_inv (fun i s => s = (PL (i - 1) (i - 1) x, 2 * INR (i - 1) + 1)) (fun _ s => Ok (pmm_step (sqrt ((1 - x) * (1 + x))) s)) 1 (m + 1) (1, 1)) as (s & E & H).
  - lia.
  - cbn [Nat.sub]. rewrite PL_00. cbn [INR]. f_equal. ring.
  - intros i s L ->. eexists. split; [reflexivity|]. unfold pmm_step. rewrite somx2_eq. destruct i as [|i]; [lia|]. replace (S i + 1 - 1)%nat with (S i) by lia. replace (S i - 1)%nat with i by lia.
    rewrite PL_SS, S_INR. f_equal. ring.
  - rewrite E. cbn [rbind]. rewrite H. cbn [fst]. now replace (m + 1 - 1)%nat with m by lia.
Qed.
Lemma PL_next m x : PL (S m) m x = x * INR (2 * m + 1) * PL m m x.
Proof.
  unfold PL. replace (S m + m)%nat with (S (2 * m)) by lia. replace (m + m)%nat with (2 * m)%nat by lia. rewrite rd_k_next. ring.
Qed.
Lemma PL_rec m x k : (m + 2 <= k)%nat -> (x * INR (2 * k - 1) * PL (k - 1) m x - INR (k + m - 1) * PL (k - 2) m x) / INR (k - m) = PL k m x.
Proof.
  intros H. destruct k as [|[|l]]; [lia|lia|]. replace (S (S l) - 1)%nat with (S l) by lia. replace (S (S l) - 2)%nat with l by lia.
  unfold PL. pose proof (rd_k_rec l (l + m) x) as E. replace (S (S (l + m))) with (S (S l) + m)%nat in E by lia. replace (S (l + m)) with (S l + m)%nat in E by lia.
  assert (N : INR (S (S l) - m) = 2 * INR (S l) - INR (l + m)). { rewrite minus_INR by lia. rewrite plus_INR, !S_INR. ring. }
  assert (NZ : INR (S (S l) - m) <> 0) by (apply not_0_INR; lia).
  replace (INR (2 * S (S l) - 1)) with (2 * INR (S l) + 1). 2:{ replace (2 * S (S l) - 1)%nat with (2 * S l + 1)%nat by lia. rewrite plus_INR, mult_INR. cbn [INR]. ring. }
  replace (S (S l) + m - 1)%nat with (S l + m)%nat by lia.
  apply (Rmult_eq_reg_r (INR (S (S l) - m))); auto. unfold Rdiv. rewrite Rmult_assoc, Rinv_l, Rmult_1_r by auto. rewrite N at 1.
  replace ((-1) ^ m * sqrt (1 - x ^ 2) ^ m * rd_k (S (S l)) (S (S l) + m) x * (2 * INR (S l) - INR (l + m))) with ((-1) ^ m * sqrt (1 - x ^ 2) ^ m * ((2 * INR (S l) - INR (l + m)) * rd_k (S (S l)) (S (S l) + m) x)) by ring.
  rewrite E. ring.
Qed.
Lemma plm_step_ok m x k : (m + 2 <= k)%nat -> plm_step m x k (PL (k - 2) m x, PL (k - 1) m x) = (PL (k - 1) m x, PL k m x).
Proof. intros H. unfold plm_step. now rewrite PL_rec. Qed.
Lemma PLegendre_ok l m x : (m <= l)%nat -> Rabs x <= 1 -> PLegendre (Z.of_nat l) (Z.of_nat m) x = Ok (PL l m x).
Proof.
  intros L X. unfold PLegendre. destruct (Z.ltb_spec (Z.of_nat m) 0); [lia|]. destruct (Z.ltb_spec (Z.of_nat l) (Z.of_nat m)); [lia|]. cbn [orb].
  destruct (Rlt_dec 1 (Rabs x)); [lra|]. rewrite !Nat2Z.id. cbv zeta. rewrite Pmm_ok. cbn [rbind].
  destruct (Z.eqb_spec (Z.of_nat l) (Z.of_nat m)) as [E|E]. { now replace l with m by lia. }
  destruct (Z.eqb_spec (Z.of_nat l) (Z.of_nat m + 1)) as [E1|E1]. { replace l with (S m) by lia. now rewrite PL_next. }
  destruct (for_nat_inv (fun k s => s = (PL (k - 2) m x, PL (k - 1) m x)) (fun k s => Ok (plm_step m x k s)) (m + 2) (l + 1) (PL m m x, x * INR (2 * m + 1) * PL m m x)) as (s & F & Hs).
  - lia.
  - rewrite <- PL_next. do 2 f_equal; lia.
  - intros k s Hk ->. eexists. split; [reflexivity|]. rewrite plm_step_ok by lia. f_equal; f_equal; lia.
  - rewrite F. cbn [rbind]. rewrite Hs. cbn [snd]. do 2 f_equal; lia.
Qed.

(** ** one column of the table *)
Lemma column_ok lmax m x P : (m <= lmax)%nat -> Rabs x <= 1 -> (tabsize lmax <= List.length P)%nat ->
  exists P', set_PlmTab_for_l_GE_m lmax m x P = Ok P' /\ List.length P' = List.length P /\
    (forall l, (m <= l <= lmax)%nat -> nth (ind_lm l m) P' 0 = PL l m x) /\
    (forall i, (forall l, (m <= l <= lmax)%nat -> i <> ind_lm l m) -> nth i P' 0 = nth i P 0).
Proof.
  intros L X S. unfold set_PlmTab_for_l_GE_m. destruct (Nat.ltb_spec lmax m); [lia|]. rewrite PLegendre_ok by (lia || auto). cbn [rbind].
  assert (B : forall l, (m <= l <= lmax)%nat -> (ind_lm l m < List.length P)%nat). { intros l Hl. pose proof (ind_bound l m lmax). lia. }
  rewrite wr_ok by (apply B; lia). cbn [rbind].
  set (P1 := upd P (ind_lm m m) (PL m m x)).
  assert (L1 : List.length P1 = List.length P) by apply upd_length.
  destruct (Nat.eqb_spec m lmax) as [->|N].
  - exists P1. split; [reflexivity|]. split; [auto|]. split.
    + intros l Hl. replace l with lmax by lia. apply nth_upd_eq. apply B. lia.
    + intros i Hi. apply nth_upd_ne. intros E. apply (Hi lmax); auto.
  - cbv zeta. replace (x * INR (2 * m + 1) * PL m m x) with (PL (m + 1) m x) by (rewrite <- PL_next; f_equal; lia).
    rewrite wr_ok by (rewrite L1; apply B; lia). cbn [rbind].
    set (P2 := upd P1 (ind_lm (m + 1) m) (PL (m + 1) m x)).
    destruct (for_nat_inv (fun k s => snd s = (PL (k - 2) m x, PL (k - 1) m x) /\ List.length (fst s) = List.length P /\
        (forall l, (m <= l < k)%nat -> nth (ind_lm l m) (fst s) 0 = PL l m x) /\
        (forall i, (forall l, (m <= l <= lmax)%nat -> i <> ind_lm l m) -> nth i (fst s) 0 = nth i P 0))
      (fun k s => let '(P, q) := s in let q := plm_step m x k q in do P <- wr P (ind_lm k m) (snd q); Ok (P, q)) (m + 2) (lmax + 1) (P2, (PL m m x, PL (m + 1) m x))) as (s & F & Hs1 & Hs2 & Hs3 & Hs4).
    + lia.
    + cbn [fst snd]. split; [do 2 f_equal; lia|]. split; [unfold P2; now rewrite upd_length|]. split.
      * intros l Hl. unfold P2. destruct (Nat.eq_dec l (m + 1)) as [->|Nl].
        { apply nth_upd_eq. rewrite L1. apply B. lia. }
        rewrite nth_upd_ne. 2:{ intros E. apply ind_inj in E; lia. } replace l with m by lia. apply nth_upd_eq. apply B. lia.
      * intros i Hi. unfold P2, P1. rewrite !nth_upd_ne; auto; intros E; symmetry in E; revert E; apply Hi; lia.
    + intros k [Q q] Hk (H1 & H2 & H3 & H4). cbn [fst snd] in *. subst q. rewrite plm_step_ok by lia. cbv zeta. cbn [snd].
      rewrite wr_ok by (rewrite H2; apply B; lia). cbn [rbind]. eexists. split; [reflexivity|]. cbn [fst snd].
      split; [f_equal; f_equal; lia|]. split; [now rewrite upd_length|]. split.
      * intros l Hl. destruct (Nat.eq_dec l k) as [->|Nl]. { apply nth_upd_eq. rewrite H2. apply B. lia. }
        rewrite nth_upd_ne. 2:{ intros E. apply ind_inj in E; lia. } apply H3. lia.
      * intros i Hi. rewrite nth_upd_ne; auto. intros E; symmetry in E; revert E; apply Hi; lia.
    + cbv zeta in F |- *. rewrite F. cbn [rbind]. exists (fst s). split; [reflexivity|]. split; auto. split; auto. intros l Hl. apply Hs3. lia.
Qed.
Lemma table_ok lmax x P : Rabs x <= 1 -> (tabsize lmax <= List.length P)%nat ->
  exists P', set_PlmTab lmax x P = Ok P' /\ List.length P' = List.length P /\
    (forall l m, (m <= l <= lmax)%nat -> nth (ind_lm l m) P' 0 = PL l m x) /\
    (forall i, (tabsize lmax <= i)%nat -> nth i P' 0 = nth i P 0).
Proof.
  intros X S. unfold set_PlmTab.
  destruct (for_nat_inv (fun k Q => List.length Q = List.length P /\ (forall l m, (m < k)%nat -> (m <= l <= lmax)%nat -> nth (ind_lm l m) Q 0 = PL l m x) /\
      (forall i, (tabsize lmax <= i)%nat -> nth i Q 0 = nth i P 0)) (fun m P => set_PlmTab_for_l_GE_m lmax m x P) 0 (lmax + 1) P) as (Q & F & H1 & H2 & H3).
  - lia.
  - split; auto. split; auto. intros l m Hm. lia.
  - intros k Q Hk (H1 & H2 & H3). destruct (column_ok lmax k x Q) as (Q' & E & C1 & C2 & C3); [lia|auto|lia|].
    exists Q'. split; [exact E|]. split; [lia|]. split.
    + intros l m Hm Hl. destruct (Nat.eq_dec m k) as [->|N]; [apply C2; lia|]. rewrite C3; [apply H2; lia|].
      intros l' Hl' E'. apply ind_inj in E'; lia.
    + intros i Hi. rewrite C3; auto. intros l Hl ->. pose proof (ind_bound l k lmax). lia.
  - exists Q. split; [exact F|]. split; auto. split; auto. intros l m Hm. apply H2; lia.
Qed.

(** ** the tables of Y *)
Definition fac_of (l m : nat) : R := INR (2 * l + 1) / (4 * PI) * (INR (fact (l - m)) / INR (fact (l + m))).
Definition Yr (l m : nat) (th ph : R) : R := PL l m (cos th) * sqrt (fac_of l m) * cos (INR m * ph).
Definition Yi (l m : nat) (th ph : R) : R := PL l m (cos th) * sqrt (fac_of l m) * sin (INR m * ph).
Lemma fac_of_0 l : INR (2 * l + 1) * (1 / (4 * PI)) = fac_of l 0.
Proof. unfold fac_of. rewrite Nat.sub_0_r, Nat.add_0_r. pose proof (fact_INR_neq l). field. split; auto. apply PI_neq0. Qed.
Lemma fac_of_S l m : (m < l)%nat -> fac_of l m / (INR (l + m + 1) * INR (l - m)) = fac_of l (m + 1).
Proof.
  intros H. unfold fac_of. replace (l + (m + 1))%nat with (S (l + m)) by lia. change (fact (S (l + m))) with (S (l + m) * fact (l + m))%nat.
  replace (l - m)%nat with (S (l - (m + 1))) by lia. change (fact (S (l - (m + 1)))) with (S (l - (m + 1)) * fact (l - (m + 1)))%nat.
  rewrite !mult_INR. replace (l + m + 1)%nat with (S (l + m)) by lia.
  pose proof (fact_INR_neq (l + m)). pose proof (fact_INR_neq (l - (m + 1))). assert (INR (S (l + m)) <> 0) by (apply not_0_INR; lia). assert (INR (S (l - (m + 1))) <> 0) by (apply not_0_INR; lia).
  pose proof PI_neq0. field. auto.
Qed.
(** entries before (l, m) in the order of the table *)
Definition before (a b l m : nat) : bool := ((a <? l) || ((a =? l) && (b <? m)))%nat.
Lemma before_iff a b l m : before a b l m = true <-> (a < l \/ (a = l /\ b < m))%nat.
Proof. unfold before. rewrite Bool.orb_true_iff, Bool.andb_true_iff, !Nat.ltb_lt, Nat.eqb_eq. tauto. Qed.
Definition done (lmax : nat) (th ph : R) (n : nat) (t : list R * list R) (l m : nat) : Prop :=
  (n <= List.length (fst t))%nat /\ (n <= List.length (snd t))%nat /\
  forall a b, (b <= a <= lmax)%nat ->
    (before a b l m = true -> nth (ind_lm a b) (fst t) 0 = Yr a b th ph /\ nth (ind_lm a b) (snd t) 0 = Yi a b th ph) /\
    (before a b l m = false -> nth (ind_lm a b) (fst t) 0 = PL a b (cos th)).
Lemma cos_abs th : Rabs (cos th) <= 1.
Proof. apply Rabs_le. pose proof (COS_bound th). lra. Qed.
Lemma YlmTabs_ok lmax th ph A B : (tabsize lmax <= List.length A)%nat -> (tabsize lmax <= List.length B)%nat ->
  exists A' B', set_YlmTabs lmax th ph A B = Ok (A', B') /\ (tabsize lmax <= List.length A')%nat /\ (tabsize lmax <= List.length B')%nat /\
    forall l m, (m <= l <= lmax)%nat -> nth (ind_lm l m) A' 0 = Yr l m th ph /\ nth (ind_lm l m) B' 0 = Yi l m th ph.
Proof.
  intros LA LB. unfold set_YlmTabs. destruct (table_ok lmax (cos th) A (cos_abs th) LA) as (A1 & E1 & L1 & T1 & _). rewrite E1. cbn [rbind]. cbv zeta.
  match goal with |- context [for_nat 0 (lmax + 1) ?f (A1, B)] => destruct (for_nat_inv (fun l t => done lmax th ph (tabsize lmax) t l 0) f 0 (lmax + 1) (A1, B)) as ([A' B'] & F & H) end.
  - lia.
  - split; [cbn [fst snd]; lia|]. split; [cbn [fst snd]; lia|]. intros a b Hb. split. { intros C. apply before_iff in C. lia. } intros _. apply T1. lia.
  - intros l t Hl D0.
    match goal with |- context [for_nat 0 (l + 1) ?f _] => destruct (for_nat_inv (fun m s => done lmax th ph (tabsize lmax) (fst s) l m /\ ((m <= l)%nat -> snd s = fac_of l m)) f 0 (l + 1) (t, INR (2 * l + 1) * (1 / (4 * PI)))) as ([t' fa] & F & H & _) end.
    + lia.
    + split; [exact D0|]. intros _. apply fac_of_0.
    + intros m [[RA IB] fac] Hm (D & Hf). cbn [fst snd] in *. rewrite Hf by lia. destruct D as (LR & LI & D). cbn [fst snd] in *.
      assert (Bd : (ind_lm l m < tabsize lmax)%nat) by (apply ind_bound; lia).
      rewrite (rd_ok _ _ 0) by lia. cbn [rbind]. destruct (D l m) as [_ D2]; [lia|]. rewrite D2. 2:{ destruct (before l m l m) eqn:C; auto. apply before_iff in C. lia. }
      rewrite wr_ok by lia. cbn [rbind]. rewrite wr_ok by lia. cbn [rbind]. eexists. split; [reflexivity|]. cbn [fst snd]. split.
      * split; [cbn [fst snd]; rewrite upd_length; lia|]. split; [cbn [fst snd]; rewrite upd_length; lia|]. cbn [fst snd]. intros a b Hb.
        destruct (Nat.eq_dec (ind_lm a b) (ind_lm l m)) as [E|E].
        { apply ind_inj in E; try lia. destruct E as [-> ->]. split. { intros _. split; apply nth_upd_eq; lia. } intros C. exfalso. assert (before l m l (m + 1) = true) by (apply before_iff; lia). congruence. }
        rewrite !nth_upd_ne by auto. destruct (D a b Hb) as [Dt Df].
        assert (EB : before a b l (m + 1) = before a b l m). { destruct (before a b l m) eqn:C.
          - apply before_iff in C. apply before_iff. lia.
          - destruct (before a b l (m + 1)) eqn:C'; auto. apply before_iff in C'. assert (a = l /\ b = m) as [-> ->]; [|congruence]. destruct C' as [C'|[C1 C2]]; [exfalso; assert (before a b l m = true) by (apply before_iff; lia); congruence|]. split; auto. destruct (Nat.eq_dec b m); auto. exfalso. assert (before a b l m = true) by (apply before_iff; lia). congruence. }
        rewrite EB. split; auto.
      * intros Hle. apply fac_of_S. lia.
    + rewrite F. cbn [rbind fst]. exists t'. split; [reflexivity|]. destruct H as (H1 & H2 & H3). split; auto. split; auto. intros a b Hb. destruct (H3 a b Hb) as [Ht Hf].
      assert (EB : before a b (l + 1) 0 = before a b l (l + 1)). { destruct (before a b l (l + 1)) eqn:C.
        - apply before_iff in C. apply before_iff. lia.
        - destruct (before a b (l + 1) 0) eqn:C'; auto. apply before_iff in C'. assert (before a b l (l + 1) = true) by (apply before_iff; lia). congruence. }
      rewrite EB. split; auto.
  - exists A', B'. split; [exact F|]. destruct H as (H1 & H2 & H3). cbn [fst snd] in *. split; auto. split; auto. intros l m Hm. apply (H3 l m ltac:(lia)). apply before_iff. lia.
Qed.

Lemma entry_ind l m : entry l m = ind_lm l m.
Proof.
  rewrite ind_m. unfold entry. f_equal. induction l as [|l IH]; [reflexivity|]. rewrite ind_S, seq_S, fold_right_app. cbn [fold_right Nat.add].
  assert (G : forall (L : list nat) a, fold_right Nat.add a L = (fold_right Nat.add 0 L + a)%nat). { induction L as [|b L IHL]; intros a; cbn; auto. rewrite IHL. lia. }
  rewrite G, IH. lia.
Qed.
Lemma pm_mod m : 1 - 2 * INR (m mod 2) = (-1) ^ m.
Proof.
  destruct (Nat.even m) eqn:E.
  - apply Nat.even_spec in E. destruct E as [k ->]. rewrite Nat.mul_comm, Nat.mod_mul by lia. rewrite Nat.mul_comm, pow_1_even. cbn. ring.
  - assert (O : Nat.Odd m) by (apply Nat.odd_spec; rewrite <- Nat.negb_even, E; reflexivity). destruct O as [k ->].
    replace (2 * k + 1)%nat with (1 + k * 2)%nat by lia. rewrite Nat.mod_add by lia. change (1 mod 2)%nat with 1%nat. replace (1 + k * 2)%nat with (S (2 * k)) by lia. rewrite pow_1_odd. cbn. ring.
Qed.
Lemma Yr_spec l m th ph : is_Ylm_pos l m th ph (Yr l m th ph) (Yi l m th ph).
Proof. exists (PL l m (cos th)). split; [now apply is_Plm_rd|]. cbv zeta. unfold Yr, Yi. fold (fac_of l m). split; ring. Qed.
