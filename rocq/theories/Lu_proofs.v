(** Proof library for LU decomposition; no code is modelled here. *)
From Verif Require Import Arrays Sparse_model Mat_model Mat_spec Mat_proofs Lu_model Lu_spec.
Local Open Scope R_scope.

(** ** matrices as functions *)
Definition setm (K : nat -> nat -> R) (i j : nat) (x : R) : nat -> nat -> R := fun a b => if ((a =? i) && (b =? j))%nat then x else K a b.
Lemma rdm_ok n A K i j : ismat n A K -> (i < n)%nat -> (j < n)%nat -> rdm n A i j = Ok (K i j).
Proof. intros [L V] Hi Hj. unfold rdm. rewrite (rd_ok _ _ 0) by (rewrite L; now apply idx_lt). now rewrite V. Qed.
Lemma wrm_ok n A K i j x : ismat n A K -> (i < n)%nat -> (j < n)%nat -> exists A', wrm n A i j x = Ok A' /\ ismat n A' (setm K i j x).
Proof.
  intros [L V] Hi Hj. unfold wrm. rewrite wr_ok by (rewrite L; now apply idx_lt). eexists. split; [reflexivity|]. split; [now rewrite upd_length|]. intros a b Ha Hb. unfold setm.
  destruct (Nat.eqb_spec a i) as [->|Na]; cbn [andb]; [destruct (Nat.eqb_spec b j) as [->|Nb]|].
  - apply nth_upd_eq. rewrite L. now apply idx_lt.
  - rewrite nth_upd_ne; auto. intros E. apply idx_inj in E; auto. lia.
  - rewrite nth_upd_ne; auto. intros E. apply idx_inj in E; auto. lia.
Qed.
Lemma ismat_ext n A K K' : (forall i j, (i < n)%nat -> (j < n)%nat -> K i j = K' i j) -> ismat n A K -> ismat n A K'.
Proof. intros H [L V]. split; auto. intros. rewrite <- H by auto. auto. Qed.
Lemma ismat_ent n A : List.length A = (n * n)%nat -> ismat n A (ent n A).
Proof. intros L. split; auto. Qed.
Ltac setm_tac := unfold setm; repeat match goal with |- context [(?a =? ?b)%nat] => destruct (Nat.eqb_spec a b) end; cbn [andb]; subst; try lia; auto.

(** maximum of the absolute values: zero iff all are *)
Lemma upmax_loop n body (g : nat -> R) : (forall i big, (i < n)%nat -> body i big = Ok (upmax big (g i))) -> exists big, for_nat 0 n body 0 = Ok big /\ 0 <= big /\ (forall i, (i < n)%nat -> Rabs (g i) <= big) /\ (big = 0 -> forall i, (i < n)%nat -> g i = 0) /\ ((forall i, (i < n)%nat -> g i = 0) -> big = 0).
Proof.
  intros H. destruct (for_nat_inv (fun m big => 0 <= big /\ (forall i, (i < m)%nat -> Rabs (g i) <= big) /\ ((forall i, (i < m)%nat -> g i = 0) -> big = 0)) body 0 n 0) as (big & E & B & U & Z).
  - lia.
  - split; [lra|]. split; auto. intros; lia.
  - intros i big Hi (B & U & Z). rewrite H by lia. eexists. split; [reflexivity|]. unfold upmax. destruct (Rlt_dec big (Rabs (g i))) as [L|L].
    + split; [lra|]. split. * intros k Hk. destruct (Nat.eq_dec k i) as [->|]; [lra|]. specialize (U k ltac:(lia)). lra. * intros Q. rewrite Q by lia. apply Rabs_R0.
    + split; auto. split. * intros k Hk. destruct (Nat.eq_dec k i) as [->|]; [lra|]. apply U. lia. * intros Q. apply Z. intros. apply Q. lia.
  - exists big. split; auto. split; auto. split; auto. split; auto. intros -> i Hi. specialize (U i Hi). assert (P := Rabs_pos (g i)). destruct (Req_dec (g i) 0) as [|N]; auto. apply Rabs_pos_lt in N. lra.
Qed.
Lemma zero_col_ok n A K : ismat n A K -> exists r, zero_col n A = Ok r /\
  match r with Some j => (j < n)%nat /\ (forall i, (i < n)%nat -> K i j = 0) /\ (forall c, (c < j)%nat -> exists i, (i < n)%nat /\ K i c <> 0) | None => forall c, (c < n)%nat -> exists i, (i < n)%nat /\ K i c <> 0 end.
Proof.
  intros M. unfold zero_col.
  match goal with |- context [for_nat 0 n ?bdy None] => destruct (for_nat_inv (fun m r => match r with Some j => (j < m)%nat /\ (forall i, (i < n)%nat -> K i j = 0) /\ (forall c, (c < j)%nat -> exists i, (i < n)%nat /\ K i c <> 0) | None => forall c, (c < m)%nat -> exists i, (i < n)%nat /\ K i c <> 0 end) bdy 0 n None) as (r & E & P) end.
  - lia.
  - intros; lia.
  - intros j [j'|] Hj P.
    + eexists. split; [reflexivity|]. destruct P as (P1 & P2 & P3). repeat split; auto. lia.
    + destruct (upmax_loop n (fun i big => do x <- rdm n A i j; Ok (upmax big x)) (fun i => K i j)) as (big & E & B & U & Z1 & Z2). { intros i big Hi. rewrite (rdm_ok n A K) by (auto; lia). reflexivity. }
      rewrite E. cbn [rbind]. eexists. split; [reflexivity|]. destruct (Req_EM_T big 0) as [Z|NZ].
      * split; [lia|]. split; auto.
      * intros c Hc. destruct (Nat.eq_dec c j) as [->|]; [|apply P; lia].
        destruct (Classical_Prop.classic (exists i, (i < n)%nat /\ K i j <> 0)) as [|Ne]; auto. exfalso. apply NZ, Z2. intros i Hi. destruct (Req_dec (K i j) 0) as [|N]; auto. exfalso. apply Ne. eauto.
  - eauto.
Qed.
Lemma zero_row_ok n A K vs0 : ismat n A K -> List.length vs0 = n -> exists r vs, zero_row n A vs0 = Ok (r, vs) /\
  match r with Some j => (j < n)%nat /\ (forall c, (c < n)%nat -> K j c = 0) /\ (forall i, (i < j)%nat -> exists c, (c < n)%nat /\ K i c <> 0)
  | None => List.length vs = n /\ (forall i, (i < n)%nat -> 0 < vs.[i]) /\ forall i, (i < n)%nat -> exists c, (c < n)%nat /\ K i c <> 0 end.
Proof.
  intros M Lv. unfold zero_row.
  match goal with |- context [for_nat 0 n ?bdy (None, vs0)] => destruct (for_nat_inv (fun m r => match fst r with Some j => (j < m)%nat /\ (forall c, (c < n)%nat -> K j c = 0) /\ (forall i, (i < j)%nat -> exists c, (c < n)%nat /\ K i c <> 0)
    | None => List.length (snd r) = n /\ (forall i, (i < m)%nat -> 0 < (snd r).[i]) /\ forall i, (i < m)%nat -> exists c, (c < n)%nat /\ K i c <> 0 end) bdy 0 n (None, vs0)) as ([r vs] & E & P) end.
  - lia.
  - cbn [fst snd]. repeat split; auto; intros; lia.
  - intros i [[j'|] vs] Hj P; cbn [fst snd] in *.
    + eexists. split; [reflexivity|]. cbn [fst snd]. destruct P as (P1 & P2 & P3). repeat split; auto. lia.
    + destruct P as (P1 & P2 & P3). destruct (upmax_loop n (fun j big => do x <- rdm n A i j; Ok (upmax big x)) (fun j => K i j)) as (big & E & B & U & Z1 & Z2). { intros j big Hi. rewrite (rdm_ok n A K) by (auto; lia). reflexivity. }
      rewrite E. cbn [rbind]. destruct (Req_EM_T big 0) as [Z|NZ].
      * eexists. split; [reflexivity|]. cbn [fst snd]. split; [lia|]. split; auto.
      * rewrite wr_ok by lia. cbn [rbind]. eexists. split; [reflexivity|]. cbn [fst snd]. split; [now rewrite upd_length|]. split.
        -- intros k Hk. destruct (Nat.eq_dec k i) as [->|]. ++ rewrite nth_upd_eq by lia. apply Rdiv_lt_0_compat; lra. ++ rewrite nth_upd_ne by auto. apply P2. lia.
        -- intros k Hk. destruct (Nat.eq_dec k i) as [->|]; [|apply P3; lia]. destruct (Classical_Prop.classic (exists c, (c < n)%nat /\ K i c <> 0)) as [|Ne]; auto. exfalso. apply NZ, Z2. intros c Hc. destruct (Req_dec (K i c) 0) as [|N]; auto. exfalso. apply Ne. eauto.
  - exists r, vs. split; auto.
Qed.

(** ** one column *)
Lemma sub_loop lo hi (body : nat -> R -> res R) (g : nat -> R) s : (forall i x, (lo <= i < hi)%nat -> body i x = Ok (x - g i)) -> for_nat lo hi body s = Ok (s - Sig (hi - lo) (fun k => g (lo + k)%nat)).
Proof.
  intros H. rewrite (sum_loop lo hi body (fun i => - g i) s). { f_equal. rewrite Sig_opp. ring. } intros i x Hi. rewrite H by auto. reflexivity.
Qed.
Lemma crout_sum_ok n A K i j hi : ismat n A K -> (i < n)%nat -> (j < n)%nat -> (hi <= n)%nat -> crout_sum n A i j hi = Ok (K i j - Sig hi (fun k => K i k * K k j)).
Proof.
  intros M Hi Hj Hh. unfold crout_sum. rewrite (rdm_ok n A K) by auto. cbn [rbind]. rewrite (sub_loop 0 hi _ (fun k => K i k * K k j)). { now rewrite Nat.sub_0_r. }
  intros k x Hk. rewrite !(rdm_ok n A K) by (auto; lia). reflexivity.
Qed.
Lemma crout_upper_ok n A K j : ismat n A K -> (j < n)%nat -> exists A' K', crout_upper n A j = Ok A' /\ ismat n A' K' /\
  (forall a c, (c <> j \/ (j <= a)%nat) -> K' a c = K a c) /\ (forall a, (a < j)%nat -> K' a j = K a j - Sig a (fun k => K a k * K' k j)).
Proof.
  intros M Hj. unfold crout_upper.
  destruct (for_nat_inv (fun m B => exists K', ismat n B K' /\ (forall a c, (c <> j \/ (m <= a)%nat) -> K' a c = K a c) /\ (forall a, (a < m)%nat -> K' a j = K a j - Sig a (fun k => K a k * K' k j))) (fun i A => do s <- crout_sum n A i j i; wrm n A i j s) 0 j A) as (A' & E & K' & M' & V1 & V2).
  - lia.
  - exists K. split; auto. split; auto. intros; lia.
  - intros i B Hi (K' & M' & V1 & V2). rewrite (crout_sum_ok n B K') by (auto; lia). cbn [rbind]. destruct (wrm_ok n B K' i j (K' i j - Sig i (fun k => K' i k * K' k j)) M') as (B' & E' & M2); [lia|lia|]. exists B'. split; auto. exists (setm K' i j (K' i j - Sig i (fun k => K' i k * K' k j))). split; auto. split.
    + intros a c H. setm_tac; apply V1; lia.
    + intros a Ha. destruct (Nat.eq_dec a i) as [->|N].
      * unfold setm at 1. rewrite !Nat.eqb_refl. cbn [andb]. rewrite (V1 i j) by lia. f_equal. apply Sig_ext. intros k Hk. rewrite (V1 i k) by lia. f_equal. setm_tac.
      * unfold setm at 1. destruct (Nat.eqb_spec a i); [lia|]. cbn [andb]. rewrite V2 by lia. f_equal. apply Sig_ext. intros k Hk. f_equal. setm_tac.
  - exists A', K'. auto.
Qed.
Lemma crout_lower_ok n A K vs j : ismat n A K -> (j < n)%nat -> List.length vs = n -> (forall i, (i < n)%nat -> 0 < vs.[i]) ->
  exists A' K' big m, crout_lower n A vs j = Ok (A', big, Some m) /\ ismat n A' K' /\ (j <= m < n)%nat /\
  (forall a c, (c <> j \/ (a < j)%nat) -> K' a c = K a c) /\ (forall a, (j <= a < n)%nat -> K' a j = K a j - Sig j (fun k => K a k * K k j)) /\
  (K' m j = 0 -> forall a, (j <= a < n)%nat -> K' a j = 0).
Proof.
  intros M Hj Lv Pv. unfold crout_lower.
  match goal with |- context [for_nat j n ?bdy _] => destruct (for_nat_inv (fun i r => let '(B, big, im) := r in exists K', ismat n B K' /\ 0 <= big /\ (forall a c, (c <> j \/ (a < j)%nat \/ (i <= a)%nat) -> K' a c = K a c) /\ (forall a, (j <= a < i)%nat -> K' a j = K a j - Sig j (fun k => K a k * K k j)) /\
     match im with None => i = j /\ big = 0 | Some m => (j <= m < i)%nat /\ big = vs.[m] * Rabs (K' m j) /\ forall a, (j <= a < i)%nat -> vs.[a] * Rabs (K' a j) <= big end) bdy j n (A, 0, None)) as ([[A' big] im] & E & K' & M' & B & V1 & V2 & V3) end.
  - lia.
  - exists K. split; auto. split; [lra|]. split; auto. split; [intros; lia|]. auto.
  - intros i [[B big] im] Hi (K' & M' & Bp & V1 & V2 & V3). rewrite (crout_sum_ok n B K') by (auto; lia). cbn [rbind].
    set (s := K' i j - Sig j (fun k => K' i k * K' k j)). destruct (wrm_ok n B K' i j s M') as (B' & E' & M2); [lia|lia|]. rewrite E'. cbn [rbind]. rewrite (rd_ok vs i 0) by lia. cbn [rbind].
    assert (Es : s = K i j - Sig j (fun k => K i k * K k j)). { unfold s. rewrite (V1 i j) by lia. f_equal. apply Sig_ext. intros k Hk. rewrite (V1 i k), (V1 k j) by lia. reflexivity. }
    assert (W1 : forall a c, (c <> j \/ (a < j)%nat \/ (i + 1 <= a)%nat) -> setm K' i j s a c = K a c). { intros a c H. setm_tac; apply V1; lia. }
    assert (W2 : forall a, (j <= a < i + 1)%nat -> setm K' i j s a j = K a j - Sig j (fun k => K a k * K k j)). { intros a Ha. destruct (Nat.eq_dec a i) as [->|N]. - unfold setm. rewrite !Nat.eqb_refl. exact Es. - unfold setm. destruct (Nat.eqb_spec a i); [lia|]. apply V2. lia. }
    assert (Pi : 0 < vs.[i]) by (apply Pv; lia). assert (Ps := Rabs_pos s).
    assert (Same : forall a, a <> i -> setm K' i j s a j = K' a j). { intros a N. unfold setm. destruct (Nat.eqb_spec a i); [lia|]. reflexivity. }
    assert (At : setm K' i j s i j = s). { unfold setm. now rewrite !Nat.eqb_refl. }
    eexists. split; [reflexivity|]. destruct (Rle_dec big (vs.[i] * Rabs s)) as [Le|Gt].
    + exists (setm K' i j s). split; auto. split; [nra|]. split; auto. split; auto. split; [lia|]. rewrite At. split; auto. intros a Ha. destruct (Nat.eq_dec a i) as [->|N]; [rewrite At; lra|]. rewrite Same by auto. destruct im as [m|]; [|lia]. destruct V3 as (H1 & H2 & H3). specialize (H3 a ltac:(lia)). lra.
    + exists (setm K' i j s). split; auto. split; auto. split; auto. split; auto. destruct im as [m|].
      * destruct V3 as (H1 & H2 & H3). split; [lia|]. rewrite Same by lia. split; auto. intros a Ha. destruct (Nat.eq_dec a i) as [->|N]; [rewrite At; lra|]. rewrite Same by auto. apply H3. lia.
      * exfalso. apply Gt. destruct V3 as [_ ->]. nra.
  - destruct im as [m|]; [|lia]. destruct V3 as (H1 & H2 & H3). exists A', K', big, m. split; auto. split; auto. split; auto. split. { intros a c H. apply V1. lia. } split; auto.
    intros Z a Ha. rewrite Z, Rabs_R0, Rmult_0_r in H2. specialize (H3 a Ha). assert (P := Pv a ltac:(lia)). assert (Q := Rabs_pos (K' a j)). destruct (Req_dec (K' a j) 0) as [|N]; auto. apply Rabs_pos_lt in N. nra.
Qed.

(** ** row permutations: the transposition done at column j, and all up to column j *)
Definition tr (a b i : nat) : nat := if (i =? a)%nat then b else if (i =? b)%nat then a else i.
Fixpoint sig (p : nat -> nat) (j : nat) (i : nat) : nat := match j with O => i | S j' => sig p j' (tr j' (p j') i) end.
Ltac tr_tac := unfold tr; repeat match goal with |- context [(?a =? ?b)%nat] => destruct (Nat.eqb_spec a b) end; subst; try lia.
Lemma tr_tr a b i : tr a b (tr a b i) = i.
Proof.
  unfold tr. destruct (Nat.eqb_spec i a) as [->|N].
  - destruct (Nat.eqb_spec b a); auto. now rewrite Nat.eqb_refl.
  - destruct (Nat.eqb_spec i b) as [->|M]; [now rewrite Nat.eqb_refl|]. destruct (Nat.eqb_spec i a); [lia|]. destruct (Nat.eqb_spec i b); [lia|reflexivity].
Qed.
Lemma sig_ext p q j i : (forall c, (c < j)%nat -> p c = q c) -> sig p j i = sig q j i.
Proof. revert i. induction j as [|j IH]; intros i H; cbn [sig]; auto. rewrite H by lia. apply IH. intros. apply H. lia. Qed.
Lemma sig_lt p n j i : (j <= n)%nat -> (forall c, (c < j)%nat -> (c <= p c < n)%nat) -> (i < n)%nat -> (sig p j i < n)%nat.
Proof. revert i. induction j as [|j IH]; intros i Hj H Hi; cbn [sig]; auto. apply IH; [lia| |]. - intros. apply H. lia. - specialize (H j ltac:(lia)). tr_tac. Qed.
Lemma sig_stable p n j m : (m < j <= n)%nat -> (forall c, (c < n)%nat -> (c <= p c < n)%nat) -> sig p j m = sig p (S m) m.
Proof.
  intros Hj H. induction j as [|j IH]; [lia|]. destruct (Nat.eq_dec m j) as [->|N]; auto. rewrite <- IH by lia. cbn [sig]. f_equal. specialize (H j ltac:(lia)). tr_tac.
Qed.
Lemma sig_surj p n j : (j <= n)%nat -> (forall c, (c < j)%nat -> (c <= p c < n)%nat) -> forall m, (m < n)%nat -> exists i, (i < n)%nat /\ sig p j i = m.
Proof.
  induction j as [|j IH]; intros Hj H m Hm; cbn [sig]; [eauto|]. destruct IH with (m := m) as (i & Hi & E); [lia|intros; apply H; lia|auto|]. exists (tr j (p j) i). rewrite tr_tr. split; auto. specialize (H j ltac:(lia)). tr_tac.
Qed.
Lemma sig_inj p j a b : sig p j a = sig p j b -> a = b.
Proof. revert a b. induction j as [|j IH]; intros a b; cbn [sig]; auto. intros E. apply IH in E. rewrite <- (tr_tr j (p j) a), E, tr_tr. reflexivity. Qed.

Lemma swap_rows_ok n A K m j : ismat n A K -> (m < n)%nat -> (j < n)%nat -> m <> j -> exists A', swap_rows n A m j = Ok A' /\ ismat n A' (fun a c => K (tr j m a) c).
Proof.
  intros M Hm Hj Ne. unfold swap_rows.
  match goal with |- context [for_nat 0 n ?bdy A] => destruct (for_nat_inv (fun k B => ismat n B (fun a c => if (c <? k)%nat then K (tr j m a) c else K a c)) bdy 0 n A) as (A' & E & M') end.
  - lia.
  - eapply ismat_ext; [|exact M]. intros. reflexivity.
  - intros k B Hk MB. rewrite !(rdm_ok n B _ _ _ MB) by lia. cbn [rbind]. rewrite Nat.ltb_irrefl.
    destruct (wrm_ok n B _ m k (K j k) MB) as (B1 & E1 & M1); [lia|lia|]. rewrite E1. cbn [rbind]. destruct (wrm_ok n B1 _ j k (K m k) M1) as (B2 & E2 & M2); [lia|lia|]. exists B2. split; auto.
    eapply ismat_ext; [|exact M2]. intros a c Ha Hc. cbv beta. destruct (Nat.ltb_spec c (k + 1)).
    + unfold setm, tr. destruct (Nat.eqb_spec c k) as [->|N].
      * rewrite !Bool.andb_true_r, Nat.ltb_irrefl. destruct (Nat.eqb_spec a j) as [->|Nj]; auto. destruct (Nat.eqb_spec a m); auto.
      * rewrite !Bool.andb_false_r. destruct (Nat.ltb_spec c k); [reflexivity|lia].
    + unfold setm. destruct (Nat.eqb_spec c k); [lia|]. rewrite !Bool.andb_false_r. destruct (Nat.ltb_spec c k); [lia|reflexivity].
  - exists A'. split; auto. eapply ismat_ext; [|exact M']. intros a c Ha Hc. cbv beta. destruct (Nat.ltb_spec c n); [reflexivity|lia].
Qed.
Lemma scale_col_ok n A K j t : ismat n A K -> (j < n)%nat -> exists A', for_nat (j + 1) n (fun i A => do x <- rdm n A i j; wrm n A i j (x * t)) A = Ok A' /\ ismat n A' (fun a c => if ((j <? a) && (c =? j))%nat then K a c * t else K a c).
Proof.
  intros M Hj. destruct (for_nat_inv (fun i B => ismat n B (fun a c => if ((j <? a) && (a <? i) && (c =? j))%nat then K a c * t else K a c)) (fun i A => do x <- rdm n A i j; wrm n A i j (x * t)) (j + 1) n A) as (A' & E & M').
  - lia.
  - eapply ismat_ext; [|exact M]. intros a c Ha Hc. cbv beta. destruct (Nat.ltb_spec j a), (Nat.ltb_spec a (j + 1)); try lia; reflexivity.
  - intros i B Hi MB. rewrite (rdm_ok n B _ _ _ MB) by lia. cbn [rbind]. rewrite Nat.ltb_irrefl, Bool.andb_false_r. cbn [andb].
    destruct (wrm_ok n B _ i j (K i j * t) MB) as (B1 & E1 & M1); [lia|lia|]. exists B1. split; auto. eapply ismat_ext; [|exact M1]. intros a c Ha Hc. cbv beta. unfold setm.
    destruct (Nat.eqb_spec a i) as [->|Na].
    + destruct (Nat.eqb_spec c j) as [->|Nc]; cbn [andb]. * destruct (Nat.ltb_spec j i), (Nat.ltb_spec i (i + 1)); try lia; reflexivity. * now rewrite !Bool.andb_false_r.
    + cbn [andb]. destruct (Nat.ltb_spec a i), (Nat.ltb_spec a (i + 1)); try lia; reflexivity.
  - exists A'. split; auto. eapply ismat_ext; [|exact M']. intros a c Ha Hc. cbv beta. destruct (Nat.ltb_spec a n); [|lia]. now rewrite Bool.andb_true_r.
Qed.

(** ** the factorisation *)
(** unit lower triangle of K *)
Definition Lf (K : nat -> nat -> R) (i k : nat) : R := if (k <? i)%nat then K i k else if (k =? i)%nat then 1 else 0.
Record factored (n : nat) (K0 K : nat -> nat -> R) (s : nat -> nat) (j : nat) : Prop := {
  f_right : forall i c, (i < n)%nat -> (j <= c < n)%nat -> K i c = K0 (s i) c;
  f_left : forall i c, (i < n)%nat -> (c < j)%nat -> Sig (S c) (fun k => Lf K i k * K k c) = K0 (s i) c;
  f_diag : forall c, (c < j)%nat -> K c c <> 0 }.
Lemma factored_step n K0 K s j K1 K2 m K4 : (j < n)%nat -> (j <= m < n)%nat -> factored n K0 K s j ->
  (forall a c, (c <> j \/ (j <= a)%nat) -> K1 a c = K a c) -> (forall a, (a < j)%nat -> K1 a j = K a j - Sig a (fun k => K a k * K1 k j)) ->
  (forall a c, (c <> j \/ (a < j)%nat) -> K2 a c = K1 a c) -> (forall a, (j <= a < n)%nat -> K2 a j = K1 a j - Sig j (fun k => K1 a k * K1 k j)) ->
  K2 m j <> 0 ->
  (forall a c, (a < n)%nat -> (c < n)%nat -> K4 a c = if ((j <? a) && (c =? j))%nat then K2 (tr j m a) c * (1 / K2 m j) else K2 (tr j m a) c) ->
  factored n K0 K4 (fun i => s (tr j m i)) (S j).
Proof.
  intros Hj Hm [FR FL FD] U1 U2 L1 L2 NZ V.
  assert (tlt : forall a, (a < n)%nat -> (tr j m a < n)%nat) by (intros a Ha; tr_tac).
  assert (tlo : forall a, (a < j)%nat -> tr j m a = a) by (intros a Ha; tr_tac).
  assert (thi : forall a, (j <= a)%nat -> (j <= tr j m a)%nat) by (intros a Ha; tr_tac).
  assert (Kc : forall a c, (a < n)%nat -> (c < n)%nat -> c <> j -> K4 a c = K (tr j m a) c).
  { intros a c Ha Hc N. rewrite V by auto. destruct (Nat.eqb_spec c j); [lia|]. rewrite Bool.andb_false_r, L1, U1 by auto. reflexivity. }
  assert (Kj : forall a, (a < j)%nat -> K4 a j = K1 a j).
  { intros a Ha. rewrite V by lia. destruct (Nat.ltb_spec j a); [lia|]. cbn [andb]. rewrite tlo, L1 by auto. reflexivity. }
  assert (Kd : K4 j j = K2 m j). { rewrite V by lia. rewrite Nat.ltb_irrefl. cbn [andb]. f_equal. tr_tac. }
  split.
  - intros i c Hi Hc. rewrite Kc by lia. apply FR; auto. lia.
  - intros i c Hi Hc. destruct (Nat.eq_dec c j) as [->|N].
    + destruct (Nat.lt_ge_cases i j) as [Lt|Ge].
      * rewrite (tlo i Lt). rewrite (Sig_ext _ _ (fun k => (if (k <? i)%nat then K i k * K1 k j else 0) + (if (k =? i)%nat then K1 i j else 0))).
        2:{ intros k Hk. unfold Lf. destruct (Nat.ltb_spec k i). - rewrite Kc, tlo, Kj by lia. destruct (Nat.eqb_spec k i); [lia|]. ring. - destruct (Nat.eqb_spec k i) as [->|]. + rewrite Kj by auto. ring. + ring. }
        rewrite Sig_plus, Sig_delta by lia. rewrite U2 by auto.
        assert (E : Sig (S j) (fun k => if (k <? i)%nat then K i k * K1 k j else 0) = Sig i (fun k => K i k * K1 k j)).
        { replace (S j) with (i + (S j - i))%nat by lia. rewrite Sig_add. rewrite (Sig_zero (S j - i)). 2:{ intros k Hk. destruct (Nat.ltb_spec (i + k) i); [lia|reflexivity]. }
          rewrite Rplus_0_r. apply Sig_ext. intros k Hk. destruct (Nat.ltb_spec k i); [reflexivity|lia]. }
        rewrite E. rewrite <- (FR i j) by lia. ring.
      * rewrite Sig_S. rewrite (Sig_ext _ _ (fun k => K1 (tr j m i) k * K1 k j)).
        2:{ intros k Hk. unfold Lf. destruct (Nat.ltb_spec k i); [|lia]. rewrite Kc, Kj, (U1 _ k) by lia. reflexivity. }
        assert (E : Lf K4 i j * K4 j j = K2 (tr j m i) j).
        { unfold Lf. rewrite Kd. destruct (Nat.ltb_spec j i). - rewrite V by lia. destruct (Nat.ltb_spec j i); [|lia]. rewrite Nat.eqb_refl. cbn [andb]. field. auto. - destruct (Nat.eqb_spec j i) as [<-|]; [|lia]. rewrite Rmult_1_l. f_equal. tr_tac. }
        rewrite E, L2 by (split; auto). rewrite (U1 (tr j m i) j) by (right; auto). rewrite FR by (auto; lia). ring.
    + rewrite <- (FL (tr j m i) c) by (auto; lia). apply Sig_ext. intros k Hk. rewrite (Kc k c), (tlo k) by lia. f_equal. unfold Lf. destruct (Nat.lt_ge_cases i j) as [Lt|Ge].
      * rewrite tlo by auto. destruct (Nat.ltb_spec k i); auto. rewrite Kc, tlo by lia. reflexivity.
      * specialize (thi i Ge). destruct (Nat.ltb_spec k i), (Nat.ltb_spec k (tr j m i)); try lia. apply Kc; lia.
  - intros c Hc. destruct (Nat.eq_dec c j) as [->|N]; [now rewrite Kd|]. rewrite Kc, tlo by lia. apply FD. lia.
Qed.
(** triangular systems *)
Lemma upper_solve (U : nat -> nat -> R) (v : nat -> R) j : (forall c, (c < j)%nat -> U c c <> 0) -> exists y : nat -> R, forall i, (i < j)%nat -> Sig j (fun k => (if (i <=? k)%nat then U i k else 0) * y k) = v i.
Proof.
  revert v. induction j as [|j IH]; intros v H; [exists (fun _ => 0); intros; lia|].
  destruct (IH (fun i => v i - U i j * (v j / U j j))) as [y Hy]. { intros; apply H; lia. }
  exists (fun k => if (k =? j)%nat then v j / U j j else y k). intros i Hi. rewrite Sig_S, Nat.eqb_refl.
  rewrite (Sig_ext _ _ (fun k => (if (i <=? k)%nat then U i k else 0) * y k)). 2:{ intros k Hk. destruct (Nat.eqb_spec k j); [lia|reflexivity]. }
  destruct (Nat.leb_spec i j); [|lia]. destruct (Nat.eq_dec i j) as [->|N].
  - rewrite Sig_zero. + field. apply H. lia. + intros k Hk. destruct (Nat.leb_spec j k); [lia|ring].
  - rewrite Hy by lia. ring.
Qed.
(** a vanishing column of pivots means a non-trivial kernel *)
Lemma factored_kernel n K0 K s j K1 K2 : (j < n)%nat -> (forall i, (i < n)%nat -> exists i', (i' < n)%nat /\ s i' = i) -> factored n K0 K s j ->
  (forall a c, (c <> j \/ (j <= a)%nat) -> K1 a c = K a c) -> (forall a, (a < j)%nat -> K1 a j = K a j - Sig a (fun k => K a k * K1 k j)) ->
  (forall a, (j <= a < n)%nat -> K2 a j = K1 a j - Sig j (fun k => K1 a k * K1 k j)) -> (forall a, (j <= a < n)%nat -> K2 a j = 0) ->
  exists x : nat -> R, x j = 1 /\ forall i, (i < n)%nat -> Sig n (fun c => K0 i c * x c) = 0.
Proof.
  intros Hj Sj [FR FL FD] U1 U2 L2 Z.
  destruct (upper_solve K (fun i => - K1 i j) j FD) as [y Hy].
  exists (fun c => if (c <? j)%nat then y c else if (c =? j)%nat then 1 else 0). split. { rewrite Nat.ltb_irrefl, Nat.eqb_refl. reflexivity. }
  intros i0 Hi0. destruct (Sj i0 Hi0) as (i & Hi & <-).
  replace n with (S j + (n - S j))%nat at 1 by lia. rewrite Sig_add, (Sig_zero (n - S j)). 2:{ intros k Hk. destruct (Nat.ltb_spec (S j + k) j); [lia|]. destruct (Nat.eqb_spec (S j + k) j); [lia|]. ring. }
  rewrite Sig_S, Nat.ltb_irrefl, Nat.eqb_refl, Rplus_0_r, Rmult_1_r.
  (* column j of the permuted matrix *)
  assert (Ej : K0 (s i) j = Sig j (fun k => Lf K i k * K1 k j)).
  { rewrite <- FR by (auto; lia). destruct (Nat.lt_ge_cases i j) as [Lt|Ge].
    - assert (EE : Sig j (fun k => Lf K i k * K1 k j) = Sig (i + S (j - S i)) (fun k => Lf K i k * K1 k j)) by (f_equal; lia). rewrite EE; clear EE. rewrite Sig_add. rewrite Sig_S_l, Nat.add_0_r. rewrite (Sig_zero (j - S i)). 2:{ intros k Hk. unfold Lf. destruct (Nat.ltb_spec (i + S k) i); [lia|]. destruct (Nat.eqb_spec (i + S k) i); [lia|]. ring. }
      unfold Lf at 2. rewrite Nat.ltb_irrefl, Nat.eqb_refl. rewrite (U2 i Lt). rewrite (Sig_ext i (fun k => Lf K i k * K1 k j) (fun k => K i k * K1 k j)). 2:{ intros k Hk. unfold Lf. destruct (Nat.ltb_spec k i); [reflexivity|lia]. } ring.
    - specialize (L2 i ltac:(lia)). rewrite (Z i) in L2 by lia. rewrite (Sig_ext j (fun k => Lf K i k * K1 k j) (fun k => K1 i k * K1 k j)). 2:{ intros k Hk. unfold Lf. destruct (Nat.ltb_spec k i); [|lia]. rewrite (U1 i k) by lia. reflexivity. } rewrite <- (U1 i j) by (right; auto). lra. }
  rewrite Ej.
  rewrite (Sig_ext j (fun c => K0 (s i) c * _) (fun c => Sig j (fun k => Lf K i k * ((if (k <=? c)%nat then K k c else 0) * y c)))).
  2:{ intros c Hc. destruct (Nat.ltb_spec c j); [|lia]. rewrite <- (FL i c) by auto. rewrite <- Sig_scal_r. replace j with (S c + (j - S c))%nat by lia. rewrite Sig_add, (Sig_zero (j - S c)). 2:{ intros k Hk. destruct (Nat.leb_spec (S c + k) c); [lia|]. ring. }
      rewrite Rplus_0_r. apply Sig_ext. intros k Hk. destruct (Nat.leb_spec k c); [|lia]. ring. }
  rewrite Sig_swap. rewrite <- Sig_plus. apply Sig_zero. intros k Hk. rewrite Sig_scal, Hy by auto. ring.
Qed.

(** ** the whole decomposition *)
Definition kernel (n : nat) (K0 : nat -> nat -> R) : Prop := exists x : nat -> R, (exists j, (j < n)%nat /\ x j <> 0) /\ forall i, (i < n)%nat -> Sig n (fun c => K0 i c * x c) = 0.
(** product of the signs of the transpositions *)
Fixpoint sgn (p : nat -> nat) (j : nat) : Z := match j with O => 1%Z | S j' => if (j' =? p j')%nat then sgn p j' else (- sgn p j')%Z end.
Lemma sgn_ext p q j : (forall c, (c < j)%nat -> p c = q c) -> sgn p j = sgn q j.
Proof. induction j as [|j IH]; intros H; cbn [sgn]; auto. rewrite H, IH by (auto; lia). reflexivity. Qed.
Definition pf (p : list nat) : nat -> nat := fun c => nth c p O.
Inductive luinv (n : nat) (K0 : nat -> nat -> R) (j : nat) (st : list R * list R * list nat * Z) : Prop :=
  LuInv (K : nat -> nat -> R) (_ : ismat n (fst (fst (fst st))) K) (_ : List.length (snd (fst (fst st))) = n)
    (_ : forall i, (i < n)%nat -> 0 < (snd (fst (fst st))).[i]) (_ : List.length (snd (fst st)) = n)
    (_ : forall c, (c < j)%nat -> (c <= pf (snd (fst st)) c < n)%nat) (_ : snd st = sgn (pf (snd (fst st))) j)
    (_ : forall c, (c < j)%nat -> K c c <> 0) (_ : kernel n K0 \/ factored n K0 K (sig (pf (snd (fst st))) j) j).
Lemma tr_same a i : tr a a i = i.
Proof. tr_tac. Qed.
Lemma factored_ext n K0 K s s' j : (forall i, s i = s' i) -> factored n K0 K s j -> factored n K0 K s' j.
Proof. intros E [F1 F2 F3]. split; auto; intros; rewrite <- E; auto. Qed.
Lemma tr_lo j m c : (c < j)%nat -> (j <= m)%nat -> tr j m c = c.
Proof. intros. tr_tac. Qed.
Lemma TINY_ne : TINY <> 0.
Proof. unfold TINY. apply Rinv_neq_0_compat, pow_nonzero. lra. Qed.
Lemma crout_col_ok n K0 j st : (j < n)%nat -> luinv n K0 j st -> exists st', crout_col n j st = Ok st' /\ luinv n K0 (S j) st'.
Proof.
  destruct st as [[[A vs] p] par]. intros Hj [K MA Lv Pv Lp Rp Sp DN F]. cbn [fst snd] in *. unfold crout_col.
  destruct (crout_upper_ok n A K j MA Hj) as (A1 & K1 & E1 & M1 & U1 & U2). rewrite E1. cbn [rbind].
  destruct (crout_lower_ok n A1 K1 vs j M1 Hj Lv Pv) as (A2 & K2 & big & m & E2 & M2 & Hm & L1 & L2 & L3). rewrite E2. cbn [rbind].
  assert (S3 : exists A3 vs3 par3, (if (j =? m)%nat then Ok (A2, vs, par) else do A <- swap_rows n A2 m j; do v <- rd vs j; do vscal <- wr vs m v; Ok (A, vscal, (- par)%Z)) = Ok (A3, vs3, par3)
     /\ ismat n A3 (fun a c => K2 (tr j m a) c) /\ List.length vs3 = n /\ (forall i, (i < n)%nat -> 0 < vs3.[i]) /\ par3 = if (j =? m)%nat then par else (- par)%Z).
  { destruct (Nat.eqb_spec j m) as [<-|N].
    - exists A2, vs, par. split; auto. split; auto. eapply ismat_ext; [|exact M2]. intros. now rewrite tr_same.
    - destruct (swap_rows_ok n A2 K2 m j M2) as (A3 & E3 & M3); [lia|lia|auto|]. rewrite E3. cbn [rbind]. rewrite (rd_ok vs j 0) by lia. cbn [rbind]. rewrite wr_ok by lia. cbn [rbind].
      exists A3, (upd vs m vs.[j]), (- par)%Z. split; auto. split; auto. split; [now rewrite upd_length|]. split; auto. intros i Hi. destruct (Nat.eq_dec i m) as [->|]. + rewrite nth_upd_eq by lia. apply Pv. lia. + rewrite nth_upd_ne by auto. auto. }
  destruct S3 as (A3 & vs3 & par3 & E3 & M3 & Lv3 & Pv3 & Ep). rewrite E3. cbn [rbind]. rewrite wr_ok by lia. cbn [rbind].
  set (p' := upd p j m). assert (Lp' : List.length p' = n) by (unfold p'; now rewrite upd_length).
  assert (Pj : pf p' j = m) by (unfold pf, p'; apply nth_upd_eq; lia). assert (Pc : forall c, c <> j -> pf p' c = pf p c) by (intros c N; unfold pf, p'; apply nth_upd_ne; congruence).
  assert (Rp' : forall c, (c < S j)%nat -> (c <= pf p' c < n)%nat). { intros c Hc. destruct (Nat.eq_dec c j) as [->|N]; [lia|]. rewrite Pc by auto. apply Rp. lia. }
  assert (Sp' : par3 = sgn (pf p') (S j)). { cbn [sgn]. rewrite Pj, Ep, Sp. rewrite (sgn_ext (pf p') (pf p)) by (intros; apply Pc; lia). reflexivity. }
  rewrite (rdm_ok n A3 _ j j M3) by lia. cbn [rbind]. assert (Tj : tr j m j = m) by (unfold tr; now rewrite Nat.eqb_refl). rewrite Tj.
  destruct (Req_EM_T (K2 m j) 0) as [Z|NZ].
  - destruct (wrm_ok n A3 _ j j TINY M3 Hj Hj) as (A4 & E4 & M4). rewrite E4. cbn [rbind]. rewrite (rdm_ok n A4 _ j j M4) by lia. cbn [rbind].
    match goal with |- context [1 / ?d] => destruct (scale_col_ok n A4 _ j (1 / d) M4 Hj) as (A5 & E5 & M5) end. rewrite E5. cbn [rbind]. eexists. split; [reflexivity|].
    eapply LuInv; cbn [fst snd]; [exact M5|auto|auto|auto|auto|auto| |].
    { intros c Hc. unfold setm. destruct (Nat.ltb_spec j c); [lia|]. cbn [andb]. destruct (Nat.eq_dec c j) as [->|N]. - rewrite !Nat.eqb_refl. cbn [andb]. apply TINY_ne. - destruct (Nat.eqb_spec c j); [lia|]. cbn [andb]. rewrite tr_lo, L1, U1 by lia. apply DN. lia. }
    left. destruct F as [|F]; auto.
    destruct (factored_kernel n K0 K (sig (pf p) j) j K1 K2 Hj) as (x & X1 & X2); auto. { apply sig_surj; auto. lia. }
    exists x. split; auto. exists j. rewrite X1. split; auto; lra.
  - cbn [rbind]. rewrite (rdm_ok n A3 _ j j M3) by lia. cbn [rbind]. rewrite Tj. destruct (scale_col_ok n A3 _ j (1 / K2 m j) M3 Hj) as (A5 & E5 & M5). rewrite E5. cbn [rbind]. eexists. split; [reflexivity|].
    eapply LuInv; cbn [fst snd]; [exact M5|auto|auto|auto|auto|auto| |].
    { intros c Hc. cbv beta. destruct (Nat.ltb_spec j c); [lia|]. cbn [andb]. destruct (Nat.eq_dec c j) as [->|N]. - rewrite Tj. exact NZ. - rewrite tr_lo, L1, U1 by lia. apply DN. lia. }
    destruct F as [|F]; auto. right.
    assert (G := factored_step n K0 K (sig (pf p) j) j K1 K2 m _ Hj Hm F U1 U2 L1 L2 NZ (fun a c _ _ => eq_refl)).
    eapply factored_ext; [|exact G]. intros i. cbn [sig]. rewrite Pj. symmetry. apply sig_ext. intros; apply Pc; lia.
Qed.
Lemma crout_ok n A vs p : List.length A = (n * n)%nat -> List.length vs = n -> (forall i, (i < n)%nat -> 0 < vs.[i]) -> List.length p = n ->
  exists st, for_nat 0 n (crout_col n) (A, vs, p, 1%Z) = Ok st /\ luinv n (ent n A) n st.
Proof.
  intros LA Lv Pv Lp. apply (for_nat_inv (fun j st => luinv n (ent n A) j st) (crout_col n) 0 n).
  - lia.
  - exists (ent n A); cbn [fst snd]; auto. + now apply ismat_ent. + intros; lia. + intros; lia. + right. split; intros; auto; lia.
  - intros j st Hj I. destruct (crout_col_ok n (ent n A) j st) as (st' & E & I'); [lia|auto|]. exists st'. split; auto. replace (j + 1)%nat with (S j) by lia. auto.
Qed.
Lemma invertible_no_kernel n A : invertible n A -> ~ kernel n (ent n A).
Proof.
  intros [B HB] (x & (j & Hj & N) & X). apply N.
  assert (E : Sig n (fun c => (if (j =? c)%nat then 1 else 0) * x c) = x j). { rewrite (Sig_single n j); auto. - rewrite Nat.eqb_refl. ring. - intros i Hi Ni. destruct (Nat.eqb_spec j i); [lia|]. ring. }
  rewrite <- E. rewrite (Sig_ext n _ (fun c => Sig n (fun k => B j k * (ent n A k c * x c)))).
  2:{ intros c Hc. destruct (HB j c Hj Hc) as [_ <-]. rewrite <- Sig_scal_r. apply Sig_ext. intros. ring. }
  rewrite Sig_swap. apply Sig_zero. intros k Hk. rewrite Sig_scal, X by auto. ring.
Qed.

(** ** solving *)
(** a run of sums with vanishing start *)
Lemma lu_forward_ok n A K p b : ismat n A K -> List.length p = n -> (forall c, (c < n)%nat -> (c <= pf p c < n)%nat) -> List.length b = n ->
  exists y, lu_forward n A p b = Ok y /\ List.length y = n /\ forall m, (m < n)%nat -> y.[m] = b.[sig (pf p) (S m) m] - Sig m (fun k => K m k * y.[k]).
Proof.
  intros M Lp Rp Lb. unfold lu_forward.
  match goal with |- context [for_nat 0 n ?bdy (b, None)] => destruct (for_nat_inv (fun i r => let '(y, z) := r in List.length y = n /\ (forall m, (i <= m < n)%nat -> y.[m] = b.[sig (pf p) i m]) /\ (forall m, (m < i)%nat -> y.[m] = b.[sig (pf p) (S m) m] - Sig m (fun k => K m k * y.[k]))
     /\ match z with None => forall k, (k < i)%nat -> y.[k] = 0 | Some z => (z < i)%nat /\ forall k, (k < z)%nat -> y.[k] = 0 end) bdy 0 n (b, None)) as ([y z] & E & Ly & _ & V & _) end.
  - lia.
  - split; auto. split; auto. split; intros; lia.
  - intros i [y z] Hi (Ly & V1 & V2 & V3). assert (Rpi := Rp i ltac:(lia)). rewrite (rd_ok p i O) by lia. cbn [rbind]. fold (pf p i). rewrite (rd_ok y (pf p i) 0) by lia. cbn [rbind]. rewrite (rd_ok y i 0) by lia. cbn [rbind]. rewrite wr_ok by lia. cbn [rbind].
    set (y1 := upd y (pf p i) y.[i]). assert (L1 : List.length y1 = n) by (unfold y1; now rewrite upd_length).
    assert (Y1lo : forall k, (k < i)%nat -> y1.[k] = y.[k]) by (intros k Hk; unfold y1; apply nth_upd_ne; lia).
    assert (Q : exists s z', (match z with Some z0 => do sum <- for_nat z0 i (fun j sum => do x <- rdm n A i j; do y <- rd y1 j; Ok (sum - x * y)) y.[pf p i]; Ok (sum, z) | None => Ok (y.[pf p i], if Req_EM_T y.[pf p i] 0 then None else Some i) end) = Ok (s, z')
      /\ s = b.[sig (pf p) (S i) i] - Sig i (fun k => K i k * y.[k]) /\ match z' with None => s = 0 /\ forall k, (k < i)%nat -> y.[k] = 0 | Some z => (z < S i)%nat /\ forall k, (k < z)%nat -> y.[k] = 0 end).
    { assert (Es : y.[pf p i] = b.[sig (pf p) (S i) i]). { rewrite V1 by lia. f_equal. cbn [sig]. f_equal. tr_tac. }
      destruct z as [z|].
      - destruct V3 as [V3 V4]. rewrite (sub_loop z i _ (fun k => K i k * y.[k])). 2:{ intros k x Hk. rewrite (rdm_ok n A K) by (auto; lia). cbn [rbind]. rewrite (rd_ok y1 k 0) by lia. cbn [rbind]. rewrite Y1lo by lia. reflexivity. }
        cbn [rbind]. eexists _, _. split; [reflexivity|]. split. + rewrite Es. f_equal. replace i with (z + (i - z))%nat at 2 by lia. rewrite Sig_add, (Sig_zero z). * ring. * intros k Hk. rewrite V4 by lia. ring. + split; auto.
      - eexists _, _. split; [reflexivity|]. split. + rewrite Es, Sig_zero; [ring|]. intros k Hk. rewrite V3 by lia. ring. + destruct (Req_EM_T y.[pf p i] 0); auto. }
    destruct Q as (s & z' & Eq & Es & Ez). rewrite Eq. cbn [rbind fst snd]. rewrite wr_ok by lia. cbn [rbind]. eexists. split; [reflexivity|].
    assert (Yi : (upd y1 i s).[i] = s) by (apply nth_upd_eq; lia). assert (Ylo : forall k, (k < i)%nat -> (upd y1 i s).[k] = y.[k]) by (intros k Hk; rewrite nth_upd_ne by lia; auto).
    split; [now rewrite upd_length|]. split; [|split].
    + intros m Hm. rewrite nth_upd_ne by lia. replace (i + 1)%nat with (S i) by lia. cbn [sig]. unfold y1. destruct (Nat.eq_dec m (pf p i)) as [->|N].
      * rewrite nth_upd_eq by lia. rewrite V1 by lia. do 2 f_equal. tr_tac.
      * rewrite nth_upd_ne by auto. rewrite V1 by lia. do 2 f_equal. tr_tac.
    + intros m Hm. destruct (Nat.eq_dec m i) as [->|N].
      * etransitivity; [exact Yi|]. etransitivity; [exact Es|]. f_equal. apply Sig_ext. intros k Hk. rewrite Ylo by auto. reflexivity.
      * rewrite Ylo by lia. rewrite V2 by lia. f_equal. apply Sig_ext. intros k Hk. rewrite Ylo by lia. reflexivity.
    + destruct z' as [z'|]. * destruct Ez as [Z1 Z2]. split; [lia|]. intros k Hk. rewrite Ylo by lia. auto. * destruct Ez as [Z1 Z2]. intros k Hk. destruct (Nat.eq_dec k i) as [->|]; [now rewrite Yi|]. rewrite Ylo by lia. apply Z2. lia.
  - rewrite E. cbn [rbind fst]. exists y. split; auto.
Qed.
Lemma lu_back_ok n A K y : ismat n A K -> (forall c, (c < n)%nat -> K c c <> 0) -> List.length y = n ->
  exists x, lu_back n A y = Ok x /\ List.length x = n /\ forall i, (i < n)%nat -> y.[i] = Sig n (fun k => (if (i <=? k)%nat then K i k else 0) * x.[k]).
Proof.
  intros M D Ly. unfold lu_back.
  match goal with |- context [for_nat 0 n ?bdy y] => destruct (for_nat_inv (fun m x => List.length x = n /\ (forall i, (i < n - m)%nat -> x.[i] = y.[i]) /\ forall i, (n - m <= i < n)%nat -> y.[i] = Sig n (fun k => (if (i <=? k)%nat then K i k else 0) * x.[k])) bdy 0 n y) as (x & E & Lx & _ & V) end.
  - lia.
  - split; auto. split; auto. intros; lia.
  - intros m x Hm (Lx & V1 & V2). cbv zeta. set (i := (n - 1 - m)%nat). assert (Hi : (i < n)%nat) by lia. rewrite (rd_ok x i 0) by lia. cbn [rbind].
    rewrite (sub_loop (i + 1) n _ (fun k => K i k * x.[k])). 2:{ intros k s Hk. rewrite (rdm_ok n A K) by (auto; lia). cbn [rbind]. rewrite (rd_ok x k 0) by lia. reflexivity. }
    cbn [rbind]. rewrite (rdm_ok n A K) by auto. cbn [rbind]. rewrite wr_ok by lia. eexists. split; [reflexivity|]. split; [now rewrite upd_length|]. split.
    + intros k Hk. rewrite nth_upd_ne by lia. apply V1. lia.
    + intros k Hk. destruct (Nat.eq_dec k i) as [->|N].
      * set (x' := upd x i _). assert (Ex : Sig n (fun k => (if (i <=? k)%nat then K i k else 0) * x'.[k]) = Sig (i + S (n - (i + 1))) (fun k => (if (i <=? k)%nat then K i k else 0) * x'.[k])) by (f_equal; lia).
        rewrite Ex. rewrite Sig_add, Sig_S_l, (Sig_zero i). 2:{ intros q Hq. destruct (Nat.leb_spec i q); [lia|]. ring. }
        rewrite (Sig_ext (n - (i + 1)) (fun q => (if (i <=? i + S q)%nat then K i (i + S q)%nat else 0) * x'.[i + S q]) (fun k => K i (i + 1 + k)%nat * x.[i + 1 + k])).
        2:{ intros q Hq. replace (i + S q)%nat with (i + 1 + q)%nat by lia. destruct (Nat.leb_spec i (i + 1 + q)); [|lia]. unfold x'. rewrite nth_upd_ne by lia. reflexivity. }
        rewrite Nat.add_0_r, Nat.leb_refl. unfold x'. rewrite nth_upd_eq by lia. rewrite V1 by lia. field. auto.
      * rewrite V2 by lia. apply Sig_ext. intros q Hq. destruct (Nat.eq_dec q i) as [->|]. -- destruct (Nat.leb_spec k i); [lia|]. ring. -- rewrite nth_upd_ne by auto. reflexivity.
  - exists x. split; auto. split; auto. intros i Hi. apply V. lia.
Qed.
(** L (U x) = permuted b means A x = b *)
Lemma lu_solve_ok n A0 A K p b : List.length A0 = (n * n)%nat -> ismat n A K -> List.length p = n -> (forall c, (c < n)%nat -> (c <= pf p c < n)%nat) -> factored n (ent n A0) K (sig (pf p) n) n -> List.length b = n ->
  exists x, lu_solve n A p b = Ok x /\ List.length x = n /\ forall i, (i < n)%nat -> times n A0 x i = b.[i].
Proof.
  intros L0 M Lp Rp [_ FL FD] Lb. destruct (lu_forward_ok n A K p b M Lp Rp Lb) as (y & Ey & Ly & Vy). destruct (lu_back_ok n A K y M FD Ly) as (x & Ex & Lx & Vx).
  unfold lu_solve. rewrite Ey. cbn [rbind]. exists x. split; auto. split; auto. intros i0 Hi0. destruct (sig_surj (pf p) n n) with (m := i0) as (i & Hi & <-); auto.
  rewrite (sig_stable (pf p) n n i) by (auto; lia).
  assert (Yi : b.[sig (pf p) (S i) i] = Sig n (fun k => Lf K i k * y.[k])).
  { assert (E : Sig n (fun k => Lf K i k * y.[k]) = Sig (i + S (n - S i)) (fun k => Lf K i k * y.[k])) by (f_equal; lia). rewrite E, Sig_add, Sig_S_l, Nat.add_0_r.
    rewrite (Sig_zero (n - S i)). 2:{ intros k Hk. unfold Lf. destruct (Nat.ltb_spec (i + S k) i); [lia|]. destruct (Nat.eqb_spec (i + S k) i); [lia|]. ring. }
    unfold Lf at 2. rewrite Nat.ltb_irrefl, Nat.eqb_refl. rewrite (Sig_ext i (fun k => Lf K i k * y.[k]) (fun k => K i k * y.[k])). 2:{ intros k Hk. unfold Lf. destruct (Nat.ltb_spec k i); [reflexivity|lia]. }
    rewrite (Vy i Hi). ring. }
  rewrite Yi. rewrite <- (sig_stable (pf p) n n i) by (auto; lia). unfold times.
  rewrite (Sig_ext n (fun k => Lf K i k * y.[k]) (fun k => Sig n (fun c => Lf K i k * ((if (k <=? c)%nat then K k c else 0) * x.[c])))). 2:{ intros k Hk. rewrite Vx by auto. now rewrite Sig_scal. }
  rewrite Sig_swap. apply Sig_ext. intros c Hc. rewrite <- (FL i c) by auto. rewrite <- Sig_scal_r.
  assert (E : forall g, Sig n g = Sig (S c + (n - S c)) g) by (intros; f_equal; lia). rewrite (E (fun k => Lf K i k * _)), Sig_add, (Sig_zero (n - S c)). 2:{ intros k Hk. destruct (Nat.leb_spec (S c + k) c); [lia|]. ring. }
  rewrite Rplus_0_r. apply Sig_ext. intros k Hk. destruct (Nat.leb_spec k c); [|lia]. ring.
Qed.
