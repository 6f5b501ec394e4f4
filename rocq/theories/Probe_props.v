(** C29: a matrix built by probing represents the operator. *)
From Verif Require Import Base Loops Rsum Sparse_model Sparse_spec Sparse_proofs Probe_model Probe_spec.
From Coq Require Import Permutation Sorted.
Local Open Scope R_scope.

(** The routine Fx computes op: given data [m] whose values at the locations xs form the vector u, it puts op(u) at the locations ys
    and leaves the values at xs alone.  It may change everything else; [Good] is what it needs (e.g. that the coefficients c1, c2 are
    in place). *)
Definition implements (Fx : mem -> mem) (xs ys : list loc) (Good : mem -> Prop) (op : (nat -> R) -> nat -> R) : Prop :=
  (forall m, Good m -> Good (Fx m) /\ (forall l, In l xs -> Fx m l = m l) /\
     forall k, (k < List.length ys)%nat -> Fx m (nth k ys (0, 0, 0)%nat) = op (fun c => m (nth c xs (0, 0, 0)%nat)) k) /\
  (forall m l v, Good m -> In l xs -> Good (put m l v)).

Lemma loc_eqb_spec a b : reflect (a = b) (loc_eqb a b).
Proof.
  destruct a as [[a1 a2] a3], b as [[b1 b2] b3]. cbn. destruct (Nat.eqb_spec a1 b1), (Nat.eqb_spec a2 b2), (Nat.eqb_spec a3 b3); cbn; constructor; congruence.
Qed.
Lemma put_eq m l v : put m l v l = v.
Proof. unfold put. destruct (loc_eqb_spec l l); congruence. Qed.
Lemma put_ne m l v k : k <> l -> put m l v k = m k.
Proof. unfold put. destruct (loc_eqb_spec k l); congruence. Qed.

(** *** linear operators *)
Lemma op_zero N M op k : linear_op N M op -> (k < M)%nat -> op (fun _ => 0) k = 0.
Proof.
  intros [HE HL] Hk. pose proof (HL (fun _ => 0) (fun _ => 0) (-1) k Hk) as H.
  rewrite (HE (fun c => 0 + -1 * 0) (fun _ => 0)) in H; auto; [lra|]. intros. lra.
Qed.
Lemma op_expand N M op u k : linear_op N M op -> (k < M)%nat -> op u k = Sig N (fun c => u c * op (unitv c) k).
Proof.
  intros HO Hk. pose proof HO as [HE HL].
  assert (G : forall n, (n <= N)%nat -> op (fun c => if Nat.ltb c n then u c else 0) k = Sig n (fun c => u c * op (unitv c) k)).
  { induction n as [|n IH]; intros Hn.
    - transitivity (op (fun _ => 0) k); [apply HE; auto|apply (op_zero N M op k HO Hk)].
    - rewrite Sig_S, <- IH by lia. rewrite <- HL by auto. apply HE; auto. intros c Hc. unfold unitv.
      destruct (Nat.ltb_spec c n), (Nat.ltb_spec c (S n)), (Nat.eqb_spec c n); try lia; subst; lra. }
  rewrite <- (G N) by lia. apply HE; auto. intros c Hc. destruct (Nat.ltb_spec c N); auto; lia.
Qed.

(** *** the stores of one column *)
Definition thr (drop v : R) : R := if Rle_dec (Rabs v) drop then 0 else v.
Definition colstores (drop : R) (M : nat) (op : (nat -> R) -> nat -> R) (c : nat) : list store :=
  flat_map (fun k => if Rle_dec (Rabs (op (unitv c) k)) drop then [] else [(k, c, op (unitv c) k)]) (seq 0 M).
Lemma scan_colstores drop op c ys m : forall l0,
  (forall k, (k < List.length ys)%nat -> m (nth k ys (0, 0, 0)%nat) = op (unitv c) (l0 + k)%nat) ->
  scan drop c ys l0 m = flat_map (fun k => if Rle_dec (Rabs (op (unitv c) k)) drop then [] else [(k, c, op (unitv c) k)]) (seq l0 (List.length ys)).
Proof.
  induction ys as [|y ys IH]; intros l0 H; auto. cbn [scan List.length seq flat_map].
  pose proof (H 0%nat) as H0. cbn in H0. rewrite Nat.add_0_r in H0. rewrite H0 by lia. f_equal.
  rewrite Nat.add_1_r. apply IH. intros k Hk. specialize (H (S k)). cbn in H. rewrite H by lia. f_equal. lia.
Qed.

(** element (k,c) of the stores *)
Definition sval (S : list store) (k c : nat) : R := lsum (fun s => if Nat.eqb (fst (fst s)) k && Nat.eqb (snd (fst s)) c then snd s else 0) S.

Section Probe.
Variables (drop : R) (Fx : mem -> mem) (xs ys : list loc) (Good : mem -> Prop) (op : (nat -> R) -> nat -> R).
Hypothesis HN : NoDup xs.
Hypothesis HO : linear_op (List.length xs) (List.length ys) op.
Hypothesis HI : implements Fx xs ys Good op.
Local Notation N := (List.length xs).
Local Notation M := (List.length ys).

Definition clean (m : mem) : Prop := Good m /\ forall l, In l xs -> m l = 0.
Lemma probe_step m c l : clean m -> (c < N)%nat -> nth c xs (0, 0, 0)%nat = l ->
  clean (put (Fx (put m l 1)) l 0) /\ scan drop c ys 0 (Fx (put m l 1)) = colstores drop M op c.
Proof.
  intros [HG HZ] Hc Hl. destruct HI as [HF HP]. assert (IL : In l xs) by (subst; now apply nth_In).
  destruct (HF (put m l 1)) as (G1 & X1 & Y1); [now apply HP|]. split.
  - split; [now apply HP|]. intros k Hk. destruct (loc_eqb_spec k l) as [->|NE]; [apply put_eq|]. rewrite put_ne, X1, put_ne by auto. now apply HZ.
  - apply scan_colstores. intros k Hk. rewrite Y1 by auto. cbn [plus]. apply HO; auto. intros c' Hc'. unfold unitv.
    destruct (Nat.eqb_spec c' c) as [->|NE]. { rewrite Hl. apply put_eq. }
    rewrite put_ne. { apply HZ. now apply nth_In. }
    intros E. apply NE. rewrite <- Hl in E. eapply NoDup_nth in E; eauto.
Qed.
Lemma probe_stores work m : clean m -> Forall (fun cl => (fst cl < N)%nat /\ nth (fst cl) xs (0, 0, 0)%nat = snd cl) work ->
  clean (fst (probe drop Fx ys work m)) /\ snd (probe drop Fx ys work m) = flat_map (fun c => colstores drop M op c) (map fst work).
Proof.
  unfold probe. intros HC HW.
  enough (G : forall acc m, clean m -> let r := fold_left (fun s cl => let m1 := Fx (put (fst s) (snd cl) 1) in (put m1 (snd cl) 0, snd s ++ scan drop (fst cl) ys 0 m1)) work (m, acc) in
     clean (fst r) /\ snd r = acc ++ flat_map (fun c => colstores drop M op c) (map fst work)) by (apply (G [] m HC)).
  clear m HC. induction HW as [|[c l] work [Hc Hl] HW IH]; intros acc m HC; cbn [fold_left map flat_map].
  - cbn. rewrite app_nil_r. auto.
  - cbv zeta in *. cbn [fst snd] in *. destruct (probe_step m c l HC Hc Hl) as [C1 S1]. rewrite S1.
    destruct (IH (acc ++ colstores drop M op c) _ C1) as [C2 S2]. split; auto. rewrite S2. now rewrite app_assoc.
Qed.

Lemma sval_app a b k c : sval (a ++ b) k c = sval a k c + sval b k c.
Proof. apply lsum_app. Qed.
Lemma sval_colstores c' k c : (k < M)%nat -> sval (colstores drop M op c') k c = if Nat.eqb c' c then thr drop (op (unitv c) k) else 0.
Proof.
  intros Hk. unfold sval, colstores. rewrite lsum_flat, lsum_seq. destruct (Nat.eqb_spec c' c) as [->|NE].
  - rewrite (Sig_single M k); auto.
    + unfold thr. destruct (Rle_dec _ drop); [reflexivity|]. rewrite lsum_cons, lsum_nil. cbn. rewrite !Nat.eqb_refl. cbn. lra.
    + intros i Hi Ni. destruct (Rle_dec _ drop); [reflexivity|]. rewrite lsum_cons, lsum_nil. cbn. destruct (Nat.eqb_spec i k); [congruence|]. cbn. lra.
  - apply Sig_zero. intros i Hi. destruct (Rle_dec _ drop); [reflexivity|]. rewrite lsum_cons, lsum_nil. cbn.
    destruct (Nat.eqb_spec c' c); [congruence|]. rewrite andb_false_r. lra.
Qed.
Lemma sval_all S cols k c : Permutation cols (seq 0 N) -> Permutation S (flat_map (fun c => colstores drop M op c) cols) -> (k < M)%nat -> (c < N)%nat ->
  sval S k c = thr drop (op (unitv c) k).
Proof.
  intros PC PS Hk Hc. unfold sval. rewrite (lsum_perm _ _ _ PS), lsum_flat.
  rewrite (lsum_perm _ _ _ PC), lsum_seq.
  change (Sig N (fun c' => sval (colstores drop M op c') k c) = thr drop (op (unitv c) k)).
  rewrite (Sig_single N c); auto.
  - rewrite sval_colstores by auto. now rewrite Nat.eqb_refl.
  - intros i Hi Ni. rewrite sval_colstores by auto. destruct (Nat.eqb_spec i c); congruence.
Qed.
Lemma represents_thr A : (forall k c, (k < M)%nat -> (c < N)%nat -> A k c = thr drop (op (unitv c) k)) -> represents drop N M op A.
Proof.
  intros HA u k Hk. split.
  - rewrite (op_expand N M op u k HO Hk), <- Sig_minus. eapply Rle_trans; [apply Sig_abs|]. rewrite <- Sig_scal. apply Sig_le. intros c Hc.
    rewrite HA by auto. unfold thr. destruct (Rle_dec (Rabs (op (unitv c) k)) drop) as [L|L].
    + replace (0 * u c - u c * op (unitv c) k) with (- (op (unitv c) k * u c)) by ring. rewrite Rabs_Ropp, Rabs_mult.
      apply Rmult_le_compat_r; [apply Rabs_pos|]. eapply Rle_trans; [exact L|apply Rmax_r].
    + replace (op (unitv c) k * u c - u c * op (unitv c) k) with 0 by ring. rewrite Rabs_R0. apply Rmult_le_pos; [apply Rmax_l|apply Rabs_pos].
  - intros HX. rewrite (op_expand N M op u k HO Hk). apply Sig_ext. intros c Hc. rewrite HA by auto. unfold thr.
    destruct (Rle_dec (Rabs (op (unitv c) k)) drop) as [L|L]; [|ring]. destruct (HX c Hc) as [->|G]; [ring|lra].
Qed.
(** all stores are within the matrix *)
Lemma colstores_range S cols s : Permutation cols (seq 0 N) -> Permutation S (flat_map (fun c => colstores drop M op c) cols) -> In s S ->
  (fst (fst s) < M)%nat /\ (snd (fst s) < N)%nat.
Proof.
  intros PC PS Hs. apply (Permutation_in _ PS) in Hs. apply in_flat_map in Hs as (c & Hc & Hs). apply (Permutation_in _ PC) in Hc. apply in_seq in Hc.
  unfold colstores in Hs. apply in_flat_map in Hs as (k & Hk & Hs). apply in_seq in Hk. destruct (Rle_dec _ drop); [destruct Hs|]. destruct Hs as [<-|[]]. cbn. lia.
Qed.
End Probe.

Lemma nth_repeat_nil {A} n k : nth k (repeat (@nil A) n) [] = [].
Proof. revert k. induction n as [|n IH]; intros [|k]; cbn; auto. Qed.
(** what the stores make of the arrays *)
Lemma set_lines_ok S n : (forall s, In s S -> (fst (fst s) < n)%nat) ->
  exists A, set_lines n S = Ok A /\ List.length A = n /\ forall k, nth k A [] = map (fun s => (snd (fst s), snd s)) (filter (fun s => Nat.eqb (fst (fst s)) k) S).
Proof.
  intros HS. unfold set_lines.
  enough (G : forall A0, List.length A0 = n -> exists A, forl S store_line A0 = Ok A /\ List.length A = n /\
     forall k, nth k A [] = nth k A0 [] ++ map (fun s => (snd (fst s), snd s)) (filter (fun s => Nat.eqb (fst (fst s)) k) S)).
  { destruct (G (repeat [] n)) as (A & E & L & H); [apply repeat_length|]. exists A. repeat split; auto. intros k. now rewrite H, nth_repeat_nil. }
  induction S as [|[[l c] v] S IH]; intros A0 L0; cbn [forl].
  - exists A0. repeat split; auto. intros k. cbn. now rewrite app_nil_r.
  - unfold store_line at 1. pose proof (HS (l, c, v) (or_introl eq_refl)) as Hl. cbn in Hl.
    rewrite (rd_ok _ l []) by lia. cbn [rbind]. rewrite wr_ok by lia. cbn [rbind].
    destruct (IH (fun s Hs => HS s (or_intror Hs)) (upd A0 l (AddToSparseVector (nth l A0 []) c v))) as (A & E & L & H); [now rewrite upd_length|].
    exists A. repeat split; auto. intros k. rewrite H. cbn [filter fst snd]. destruct (Nat.eqb_spec l k) as [->|NE].
    + rewrite nth_upd_eq by lia. unfold AddToSparseVector. now rewrite <- app_assoc.
    + now rewrite nth_upd_ne.
Qed.
Lemma set_columns_ok S n : (forall s, In s S -> (snd (fst s) < n)%nat) ->
  exists A, set_columns n S = Ok A /\ List.length A = n /\ forall k, nth k A [] = map (fun s => (fst (fst s), snd s)) (filter (fun s => Nat.eqb (snd (fst s)) k) S).
Proof.
  intros HS. unfold set_columns.
  enough (G : forall A0, List.length A0 = n -> exists A, forl S store_col A0 = Ok A /\ List.length A = n /\
     forall k, nth k A [] = nth k A0 [] ++ map (fun s => (fst (fst s), snd s)) (filter (fun s => Nat.eqb (snd (fst s)) k) S)).
  { destruct (G (repeat [] n)) as (A & E & L & H); [apply repeat_length|]. exists A. repeat split; auto. intros k. now rewrite H, nth_repeat_nil. }
  induction S as [|[[l c] v] S IH]; intros A0 L0; cbn [forl].
  - exists A0. repeat split; auto. intros k. cbn. now rewrite app_nil_r.
  - unfold store_col at 1. pose proof (HS (l, c, v) (or_introl eq_refl)) as Hl. cbn in Hl.
    rewrite (rd_ok _ c []) by lia. cbn [rbind]. rewrite wr_ok by lia. cbn [rbind].
    destruct (IH (fun s Hs => HS s (or_intror Hs)) (upd A0 c (AddToSparseVector (nth c A0 []) l v))) as (A & E & L & H); [now rewrite upd_length|].
    exists A. repeat split; auto. intros k. rewrite H. cbn [filter fst snd]. destruct (Nat.eqb_spec c k) as [->|NE].
    + rewrite nth_upd_eq by lia. unfold AddToSparseVector. now rewrite <- app_assoc.
    + now rewrite nth_upd_ne.
Qed.
Lemma sval_lines S k c : entry (map (fun s => (snd (fst s), snd s)) (filter (fun s => Nat.eqb (fst (fst s)) k) S)) c = sval S k c.
Proof.
  unfold entry, sval. rewrite lsum_map. induction S as [|s S IH]; auto. cbn [filter]. rewrite lsum_cons.
  destruct (Nat.eqb (fst (fst s)) k); cbn [andb]; rewrite ?lsum_cons, IH; auto. lra.
Qed.
Lemma sval_columns S k c : entry (map (fun s => (fst (fst s), snd s)) (filter (fun s => Nat.eqb (snd (fst s)) c) S)) k = sval S k c.
Proof.
  unfold entry, sval. rewrite lsum_map. induction S as [|s S IH]; auto. cbn [filter]. rewrite lsum_cons.
  destruct (Nat.eqb (snd (fst s)) c); rewrite ?lsum_cons, IH; cbn [fst snd]; rewrite ?andb_true_r, ?andb_false_r; auto. lra.
Qed.

(** the lines and the columns built from these stores represent op *)
Definition matrices_represent (drop : R) (n : nat) (op : (nat -> R) -> nat -> R) (stores : list store) : Prop :=
  exists Al Ac, set_lines n stores = Ok Al /\ set_columns n stores = Ok Ac /\ List.length Al = n /\ List.length Ac = n /\
    Forall (Forall (fun e => (fst e < n)%nat)) Al /\ Forall (Forall (fun e => (fst e < n)%nat)) Ac /\
    represents drop n n op (elem Al) /\ represents drop n n op (fun k c => elem Ac c k).
Lemma matrices_ok drop Fx xs ys Good op S cols : linear_op (List.length xs) (List.length ys) op -> implements Fx xs ys Good op ->
  List.length ys = List.length xs -> Permutation cols (seq 0 (List.length xs)) -> Permutation S (flat_map (fun c => colstores drop (List.length ys) op c) cols) ->
  matrices_represent drop (List.length xs) op S.
Proof.
  intros HO HI EL PC PS.
  assert (RG : forall s, In s S -> (fst (fst s) < List.length ys)%nat /\ (snd (fst s) < List.length xs)%nat) by (intros; eapply colstores_range; eauto).
  rewrite EL in RG.
  destruct (set_lines_ok S (List.length xs)) as (Al & E1 & L1 & H1); [intros; now apply RG|].
  destruct (set_columns_ok S (List.length xs)) as (Ac & E2 & L2 & H2); [intros; now apply RG|].
  exists Al, Ac. split; [exact E1|split; [exact E2|split; [exact L1|split; [exact L2|]]]]. split; [|split; [|split]].
  - apply Forall_forall. intros s Hs. apply (In_nth _ _ []) in Hs as (k & Hk & <-). rewrite H1. apply Forall_forall. intros e He.
    apply in_map_iff in He as (s & <- & Hs). apply filter_In in Hs as [Hs _]. now apply RG.
  - apply Forall_forall. intros s Hs. apply (In_nth _ _ []) in Hs as (k & Hk & <-). rewrite H2. apply Forall_forall. intros e He.
    apply in_map_iff in He as (s & <- & Hs). apply filter_In in Hs as [Hs _]. now apply RG.
  - rewrite <- EL at 2. apply represents_thr; auto. intros k c Hk Hc. unfold elem. rewrite H1, sval_lines. eapply sval_all; eauto.
  - rewrite <- EL at 2. apply represents_thr; auto. intros k c Hk Hc. unfold elem. rewrite H2, sval_columns. eapply sval_all; eauto.
Qed.

(** *** locations *)
Lemma in_locs_points boxes vl l : In l (locs_points boxes vl) <-> exists bn, In bn boxes /\ fst (fst l) = fst bn /\ In (snd (fst l)) vl /\ (snd l < snd bn)%nat.
Proof.
  unfold locs_points. rewrite in_flat_map. split.
  - intros (bn & Hb & Hl). apply in_flat_map in Hl as (i & Hi & Hl). apply in_map_iff in Hl as (v & <- & Hv). apply in_seq in Hi. exists bn. cbn. repeat split; auto. lia.
  - destruct l as [[b v] i]. cbn. intros (bn & Hb & -> & Hv & Hi). exists bn. split; auto. apply in_flat_map. exists i. split; [apply in_seq; lia|]. apply in_map_iff. exists v. auto.
Qed.
Lemma in_locs_vars boxes vl l : In l (locs_vars boxes vl) <-> In l (locs_points boxes vl).
Proof.
  rewrite in_locs_points. unfold locs_vars. rewrite in_flat_map. split.
  - intros (bn & Hb & Hl). apply in_flat_map in Hl as (i & Hi & Hl). apply in_map_iff in Hl as (v & <- & Hv). apply in_seq in Hv. exists bn. cbn. repeat split; auto. lia.
  - destruct l as [[b v] i]. cbn. intros (bn & Hb & -> & Hv & Hi). exists bn. split; auto. apply in_flat_map. exists v. split; auto. apply in_map_iff. exists i. split; auto. apply in_seq; lia.
Qed.
Lemma vl_zero_in boxes vl m l : In l (locs_points boxes vl) -> vl_zero boxes vl m l = 0.
Proof.
  intros H. apply in_locs_vars in H. unfold vl_zero. revert m. induction (locs_vars boxes vl) as [|k r IH]; intros m; [destruct H|]. cbn [fold_left].
  destruct (in_dec (fun a b => reflect_dec _ _ (loc_eqb_spec a b)) l r) as [I|NI]; [now apply IH|].
  destruct H as [->|H]; [|tauto]. assert (G : forall m, fold_left (fun m l => put m l 0) r m l = m l).
  { clear IH. induction r as [|k r IH]; intros m'; cbn; auto. rewrite IH by (intros X; apply NI; now right). apply put_ne. intros ->. apply NI. now left. }
  rewrite G. apply put_eq.
Qed.
Lemma vl_zero_out boxes vl m l : ~ In l (locs_points boxes vl) -> vl_zero boxes vl m l = m l.
Proof.
  intros H. rewrite <- in_locs_vars in H. unfold vl_zero. revert m. induction (locs_vars boxes vl) as [|k r IH]; intros m; cbn; auto.
  rewrite IH by (intros X; apply H; now right). apply put_ne. intros ->. apply H. now left.
Qed.
Lemma NoDup_app_intro {A} (a b : list A) : NoDup a -> NoDup b -> (forall x, In x a -> In x b -> False) -> NoDup (a ++ b).
Proof.
  induction a as [|x a IH]; intros Ha Hb H; cbn; auto. inversion Ha; subst. constructor.
  - rewrite in_app_iff. intros [I|I]; [auto|]. apply (H x); auto. now left.
  - apply IH; auto. intros y Hy. apply H. now right.
Qed.
Lemma NoDup_flat_map {A B} (f : A -> list B) l : NoDup l -> (forall a, In a l -> NoDup (f a)) ->
  (forall a b x, In a l -> In b l -> In x (f a) -> In x (f b) -> a = b) -> NoDup (flat_map f l).
Proof.
  induction l as [|a l IH]; intros ND H1 H2; cbn; [constructor|]. inversion ND; subst. apply NoDup_app_intro.
  - apply H1. now left.
  - apply IH; auto. { intros; apply H1; now right. } intros; eapply H2; eauto; now right.
  - intros x Hx Hx'. apply in_flat_map in Hx' as (b & Hb & Hx'). assert (a = b) by (eapply H2; eauto; [now left|now right]). subst. tauto.
Qed.
Lemma NoDup_locs_points boxes vl : NoDup (map fst boxes) -> NoDup vl -> NoDup (locs_points boxes vl).
Proof.
  intros NB NV. unfold locs_points. apply NoDup_flat_map.
  - now apply NoDup_map_inv in NB.
  - intros bn _. apply NoDup_flat_map; [apply seq_NoDup| |].
    + intros i _. apply FinFun.Injective_map_NoDup; auto. intros v w E. now inversion E.
    + intros i j x _ _ Hi Hj. apply in_map_iff in Hi as (v & <- & _). apply in_map_iff in Hj as (w & E & _). now inversion E.
  - intros a b x Ha Hb Hx Hy. apply in_flat_map in Hx as (i & _ & Hx). apply in_map_iff in Hx as (v & <- & _).
    apply in_flat_map in Hy as (j & _ & Hy). apply in_map_iff in Hy as (w & E & _). inversion E.
    clear -NB Ha Hb H0. induction boxes as [|c r IH]; [destruct Ha|]. cbn in NB. inversion NB; subst.
    destruct Ha as [->|Ha], Hb as [->|Hb]; auto.
    + exfalso. apply H2. rewrite <- H0. now apply in_map.
    + exfalso. apply H2. rewrite H0. now apply in_map.
Qed.
Lemma NoDup_locs_vars boxes vl : NoDup (map fst boxes) -> NoDup vl -> NoDup (locs_vars boxes vl).
Proof.
  intros NB NV. assert (P : Permutation (locs_points boxes vl) (locs_vars boxes vl)).
  { unfold locs_points, locs_vars. clear NB. induction boxes as [|bn r IH]; cbn; auto. apply Permutation_app; auto. clear.
    generalize (seq 0 (snd bn)). intros l. induction l as [|i l IH]; cbn.
    - induction vl; cbn; auto.
    - rewrite IH. clear. induction vl as [|v vl IH]; cbn; auto. constructor. rewrite <- IH. rewrite !app_assoc. apply Permutation_app_tail. apply Permutation_app_comm. }
  eapply Permutation_NoDup; [exact P|]. now apply NoDup_locs_points.
Qed.

(** *** numbering of the unknowns *)
Lemma flat_const_length {A B} (f : A -> list B) l n : (forall a, In a l -> List.length (f a) = n) -> List.length (flat_map f l) = (List.length l * n)%nat.
Proof. induction l as [|a l IH]; intros H; cbn; auto. rewrite app_length, IH, (H a); auto; [now left|intros; apply H; now right]. Qed.
Lemma nth_flat_const {A B} (f : A -> list B) l n d da : (forall a, In a l -> List.length (f a) = n) -> forall i j, (i < List.length l)%nat -> (j < n)%nat ->
  nth (i * n + j) (flat_map f l) d = nth j (f (nth i l da)) d.
Proof.
  induction l as [|a l IH]; intros H i j Hi Hj; cbn in Hi; [lia|]. assert (La : List.length (f a) = n) by (apply H; now left). destruct i as [|i]; cbn [flat_map nth].
  - rewrite app_nth1 by (cbn; lia). reflexivity.
  - rewrite app_nth2 by (cbn; lia). replace (S i * n + j - List.length (f a))%nat with (i * n + j)%nat by (cbn; lia). apply IH; auto; [intros; apply H; now right|lia].
Qed.
Lemma locs_points_length boxes vl : List.length (locs_points boxes vl) = (list_sum (map snd boxes) * List.length vl)%nat.
Proof.
  induction boxes as [|bn r IH]; auto.
  change (locs_points (bn :: r) vl) with (@app loc (flat_map (fun i => map (fun v => (fst bn, v, i)) vl) (seq 0 (snd bn))) (locs_points r vl)).
  rewrite app_length, IH, (flat_const_length _ _ (List.length vl)) by (intros; apply map_length). rewrite seq_length. cbn. unfold list_sum. lia.
Qed.
Lemma locs_vars_length boxes vl : List.length (locs_vars boxes vl) = (list_sum (map snd boxes) * List.length vl)%nat.
Proof.
  induction boxes as [|bn r IH]; auto.
  change (locs_vars (bn :: r) vl) with (@app loc (flat_map (fun v => map (fun i => (fst bn, v, i)) (seq 0 (snd bn))) vl) (locs_vars r vl)).
  rewrite app_length, IH, (flat_const_length _ _ (snd bn)) by (intros; now rewrite map_length, seq_length). cbn. unfold list_sum. lia.
Qed.
Lemma offsets_ok vl : forall boxes o p bn off, In (bn, off) (combine boxes (offsets (List.length vl) boxes o p)) ->
  (o + p * List.length vl <= off)%nat /\ forall i j, (i < snd bn)%nat -> (j < List.length vl)%nat ->
    (off + i * List.length vl + j < o + p * List.length vl + List.length (locs_points boxes vl))%nat /\
    nth (off + i * List.length vl + j - (o + p * List.length vl)) (locs_points boxes vl) (0, 0, 0)%nat = (fst bn, nth j vl 0%nat, i).
Proof.
  induction boxes as [|b0 r IH]; intros o p bn off Hin; cbn [offsets combine] in Hin; [destruct Hin|].
  assert (L0 : @List.length loc (flat_map (fun i => map (fun v => (fst b0, v, i)) vl) (seq 0 (snd b0))) = (snd b0 * List.length vl)%nat)
    by (rewrite (flat_const_length _ _ (List.length vl)), seq_length by (intros; apply map_length); auto).
  destruct Hin as [E|Hin].
  - inversion E; subst. split; [lia|]. intros i j Hi Hj. change (locs_points (bn :: r) vl) with (@app loc (flat_map (fun i => map (fun v => (fst bn, v, i)) vl) (seq 0 (snd bn))) (locs_points r vl)). rewrite app_length, L0. split; [nia|].
    replace (o + p * List.length vl + i * List.length vl + j - (o + p * List.length vl))%nat with (i * List.length vl + j)%nat by lia.
    rewrite app_nth1 by (rewrite L0; nia). rewrite (nth_flat_const _ _ (List.length vl) _ 0%nat) by (try (intros; apply map_length); rewrite ?seq_length; auto).
    rewrite seq_nth by auto. cbn [plus]. erewrite nth_indep by (rewrite map_length; auto). apply (map_nth (fun v => (fst bn, v, i)) vl 0%nat).
  - apply IH in Hin as [Ho Hn]. split; [nia|]. intros i j Hi Hj. specialize (Hn i j Hi Hj) as [H1 H2]. change (locs_points (b0 :: r) vl) with (@app loc (flat_map (fun i => map (fun v => (fst b0, v, i)) vl) (seq 0 (snd b0))) (locs_points r vl)).
    rewrite app_length, L0. split; [nia|]. rewrite app_nth2 by (rewrite L0; nia). rewrite L0. rewrite <- H2. f_equal. nia.
Qed.
Lemma work_points_ok boxes vl bn off points : In (bn, off) (combine boxes (offsets (List.length vl) boxes 0 0)) -> (forall i, In i points -> (i < snd bn)%nat) ->
  Forall (fun cl => (fst cl < List.length (locs_points boxes vl))%nat /\ nth (fst cl) (locs_points boxes vl) (0, 0, 0)%nat = snd cl) (work_points vl (fst bn) off points).
Proof.
  intros Hin HP. apply Forall_forall. intros cl Hcl. unfold work_points in Hcl. apply in_flat_map in Hcl as (i & Hi & Hcl). apply in_map_iff in Hcl as (j & <- & Hj). apply in_seq in Hj. cbn [fst snd].
  apply offsets_ok in Hin as [_ H]. specialize (H i j (HP i Hi) ltac:(lia)). cbn [plus mult] in H. rewrite Nat.sub_0_r in H. tauto.
Qed.
Lemma map_fst_work vl b off points : map fst (work_points vl b off points) = flat_map (fun i => seq (off + i * List.length vl) (List.length vl)) points.
Proof.
  unfold work_points. induction points as [|i r IH]; cbn [flat_map map]; auto. rewrite map_app, IH. f_equal. rewrite map_map. cbn [fst].
  generalize (off + i * List.length vl)%nat. generalize (List.length vl). clear. intros n k. induction n as [|n IHn]; [reflexivity|]. rewrite !seq_S, map_app, IHn. reflexivity.
Qed.
Lemma blocks_seq n k : forall off, flat_map (fun i => seq (off + i * n) n) (seq 0 k) = seq off (k * n).
Proof.
  induction k as [|k IH]; intros off; auto. rewrite seq_S, flat_map_app, IH. cbn [flat_map]. rewrite app_nil_r. cbn [plus].
  replace (S k * n)%nat with (k * n + n)%nat by lia. now rewrite seq_app.
Qed.
Lemma cols_blocks vl : forall boxes o p, flat_map (fun q => flat_map (fun i => seq (snd q + i * List.length vl) (List.length vl)) (seq 0 (snd (fst q))))
     (combine boxes (offsets (List.length vl) boxes o p)) = seq (o + p * List.length vl) (List.length (locs_points boxes vl)).
Proof.
  induction boxes as [|b0 r IH]; intros o p; cbn [offsets combine flat_map]; auto. rewrite IH. cbn [fst snd]. rewrite blocks_seq, !locs_points_length.
  cbn [map list_sum fold_right]. change (fold_right Nat.add 0%nat (map snd r)) with (list_sum (map snd r)).
  rewrite Nat.mul_add_distr_r, seq_app. reflexivity.
Qed.
Lemma map_flat_map {A B C} (g : B -> C) (f : A -> list B) l : map g (flat_map f l) = flat_map (fun a => map g (f a)) l.
Proof. induction l as [|a l IH]; cbn; auto. now rewrite map_app, IH. Qed.
Lemma flat_map_flat_map {A B C} (g : B -> list C) (f : A -> list B) l : flat_map g (flat_map f l) = flat_map (fun a => flat_map g (f a)) l.
Proof. induction l as [|a l IH]; cbn; auto. now rewrite flat_map_app, IH. Qed.
Lemma flat_map_concat_eq {A B} (f : A -> list B) l : flat_map f (concat l) = flat_map (flat_map f) l.
Proof. induction l as [|a l IH]; cbn; auto. now rewrite flat_map_app, IH. Qed.
Lemma flat_map_ext_in {A B} (f g : A -> list B) l : (forall a, In a l -> f a = g a) -> flat_map f l = flat_map g l.
Proof. induction l as [|a l IH]; intros H; cbn; auto. rewrite IH, (H a); auto; [now left|intros; apply H; now right]. Qed.
Lemma flat_map_perm {A B} (f g : A -> list B) l : (forall a, In a l -> Permutation (f a) (g a)) -> Permutation (flat_map f l) (flat_map g l).
Proof. induction l as [|a l IH]; intros H; cbn; auto. apply Permutation_app; [apply H; now left|apply IH; intros; apply H; now right]. Qed.

(** The col computed by the code is the position of the unknown in the order boxes, points, variables. *)
Theorem C29_numbering boxes vlx :
  map fst (work_all boxes vlx) = seq 0 (List.length (locs_points boxes vlx)) /\ map snd (work_all boxes vlx) = locs_points boxes vlx.
Proof.
  assert (W : Forall (fun cl => (fst cl < List.length (locs_points boxes vlx))%nat /\ nth (fst cl) (locs_points boxes vlx) (0, 0, 0)%nat = snd cl) (work_all boxes vlx)).
  { apply Forall_forall. intros cl Hcl. unfold work_all in Hcl. apply in_flat_map in Hcl as ([bn off] & Hq & Hcl). cbn [fst snd] in Hcl.
    pose proof (work_points_ok boxes vlx bn off (seq 0 (snd bn)) Hq) as H. rewrite Forall_forall in H. apply H; auto. intros i Hi. apply in_seq in Hi. lia. }
  assert (M1 : map fst (work_all boxes vlx) = seq 0 (List.length (locs_points boxes vlx))).
  { unfold work_all. rewrite map_flat_map. etransitivity; [|apply (cols_blocks vlx boxes 0 0)]. apply flat_map_ext. intros q. apply map_fst_work. }
  split; auto. assert (LW : List.length (work_all boxes vlx) = List.length (locs_points boxes vlx)) by (rewrite <- (map_length fst), M1; apply seq_length).
  apply (list_eq_nth (0, 0, 0)%nat); rewrite map_length; auto. intros k Hk.
  rewrite Forall_forall in W. destruct (W (nth k (work_all boxes vlx) (0, (0, 0, 0))%nat) (nth_In _ _ Hk)) as [_ Hn].
  change (0, 0, 0)%nat with (snd (0, (0, 0, 0))%nat) at 1. rewrite map_nth, <- Hn. f_equal.
  rewrite <- (map_nth fst), M1. cbn [fst]. now rewrite seq_nth by lia.
Qed.

(** *** C29 with LEVEL6_Pragmas: any distribution of the points over threads, any order of the stores *)
Theorem C29_parallel drop Fx boxes vlFx vlx share op Good m stores :
  NoDup (map fst boxes) -> NoDup vlx -> List.length vlFx = List.length vlx ->
  let N := List.length (locs_points boxes vlx) in
  linear_op N N op -> implements Fx (locs_points boxes vlx) (locs_points boxes vlFx) Good op -> Good (vl_zero boxes vlx m) ->
  (forall bn, In bn boxes -> Permutation (concat (share (fst bn))) (seq 0 (snd bn))) ->
  Permutation stores (snd (probe_parallel drop Fx boxes vlFx vlx share m)) ->
  matrices_represent drop N op stores /\
  (forall l, In l (locs_points boxes vlx) -> fst (probe_parallel drop Fx boxes vlFx vlx share m) l = 0) /\
  (forall l, ~ In l (locs_points boxes vlx) -> fst (probe_parallel drop Fx boxes vlFx vlx share m) l = m l).
Proof.
  intros NB NV LV N HO HI HG HS PS. cbn [probe_parallel fst]. split; [|split; intros; [now apply vl_zero_in|now apply vl_zero_out]].
  assert (LY : List.length (locs_points boxes vlFx) = N) by (unfold N; rewrite !locs_points_length; now rewrite LV).
  assert (CL : clean (locs_points boxes vlx) Good (vl_zero boxes vlx m)) by (split; auto; intros; now apply vl_zero_in).
  set (cols := flat_map (fun p => flat_map (fun points => map fst (work_points vlx (fst (fst p)) (snd p) points)) (share (fst (fst p))))
     (combine boxes (offsets (List.length vlx) boxes 0 0))).
  apply (matrices_ok drop Fx (locs_points boxes vlx) (locs_points boxes vlFx) Good op stores cols); auto; fold N.
  - now rewrite LY.
  - unfold cols. unfold N. pose proof (cols_blocks vlx boxes 0 0) as CB. cbn [plus mult] in CB. rewrite <- CB. apply flat_map_perm. intros [bn off] Hq. cbn [fst snd].
    rewrite (flat_map_ext _ (fun points => flat_map (fun i => seq (off + i * List.length vlx) (List.length vlx)) points)) by (intros; apply map_fst_work).
    rewrite <- flat_map_concat_eq. apply Permutation_flat_map. apply HS. eapply in_combine_l; eauto.
  - rewrite PS. cbn [probe_parallel snd]. unfold cols. rewrite flat_map_flat_map.
    match goal with |- Permutation ?a ?b => enough (a = b) as -> by reflexivity end.
    apply flat_map_ext_in. intros [bn off] Hq. cbn [fst snd]. rewrite flat_map_flat_map. apply flat_map_ext_in. intros points Hp.
    apply (probe_stores drop Fx (locs_points boxes vlx) (locs_points boxes vlFx) Good op); auto.
    + now apply NoDup_locs_points.
    + now rewrite LY.
    + apply work_points_ok; auto. intros i Hi. assert (In i (concat (share (fst bn)))) by (apply in_concat; eauto).
      eapply Permutation_in in H; [|apply HS; eapply in_combine_l; eauto]. apply in_seq in H. lia.
Qed.

(** *** C29 without LEVEL6_Pragmas, under the assumption that vlx is zero when the function is called.  Missing: any other content of
    vlx, see C29_serial_refuted. *)
Theorem C29_serial_partial drop Fx boxes vlFx vlx op Good m :
  NoDup (map fst boxes) -> NoDup vlx -> List.length vlFx = List.length vlx ->
  let N := List.length (locs_points boxes vlx) in
  linear_op N N op -> implements Fx (locs_points boxes vlx) (locs_points boxes vlFx) Good op -> Good m ->
  (forall l, In l (locs_points boxes vlx) -> m l = 0) ->
  matrices_represent drop N op (snd (probe_serial drop Fx boxes vlFx vlx m)) /\
  (forall l, In l (locs_points boxes vlx) -> fst (probe_serial drop Fx boxes vlFx vlx m) l = 0) /\
  (forall l, ~ In l (locs_points boxes vlx) -> fst (probe_serial drop Fx boxes vlFx vlx m) l = m l).
Proof.
  intros NB NV LV N HO HI HG HZ. cbn [probe_serial fst]. split; [|split; intros; [now apply vl_zero_in|now apply vl_zero_out]].
  assert (LY : List.length (locs_points boxes vlFx) = N) by (unfold N; rewrite !locs_points_length; now rewrite LV).
  destruct (C29_numbering boxes vlx) as [M1 _].
  apply (matrices_ok drop Fx (locs_points boxes vlx) (locs_points boxes vlFx) Good op _ (seq 0 N)); auto; fold N.
  - now rewrite LY.
  - cbn [probe_serial snd]. match goal with |- Permutation ?a ?b => enough (a = b) as -> by reflexivity end.
    unfold N. rewrite <- M1. apply (probe_stores drop Fx (locs_points boxes vlx) (locs_points boxes vlFx) Good op); auto.
    + now apply NoDup_locs_points.
    + now rewrite LY.
    + split; auto.
    + apply Forall_forall. intros cl Hcl. unfold work_all in Hcl. apply in_flat_map in Hcl as ([bn off] & Hq & Hcl). cbn [fst snd] in Hcl.
      pose proof (work_points_ok boxes vlx bn off (seq 0 (snd bn)) Hq) as H. rewrite Forall_forall in H. apply H; auto. intros i Hi. apply in_seq in Hi. lia.
Qed.

(** *** C29 for variables sorted one after the other; vlx is zero afterwards *)
Theorem C29_sorted drop Fx boxes vlFx vlx op Good m :
  NoDup (map fst boxes) -> NoDup vlx -> List.length vlFx = List.length vlx ->
  let N := List.length (locs_vars boxes vlx) in
  linear_op N N op -> implements Fx (locs_vars boxes vlx) (locs_vars boxes vlFx) Good op -> Good (vl_zero boxes vlx m) ->
  matrices_represent drop N op (snd (probe_sorted drop Fx boxes vlFx vlx m)) /\
  (forall l, In l (locs_vars boxes vlx) -> fst (probe_sorted drop Fx boxes vlFx vlx m) l = 0).
Proof.
  intros NB NV LV N HO HI HG.
  assert (LY : List.length (locs_vars boxes vlFx) = N) by (unfold N; rewrite !locs_vars_length; now rewrite LV).
  destruct (probe_stores drop Fx (locs_vars boxes vlx) (locs_vars boxes vlFx) Good op) with
    (work := combine (seq 0 N) (locs_vars boxes vlx)) (m := vl_zero boxes vlx m) as [C1 S1]; auto.
  - now apply NoDup_locs_vars.
  - now rewrite LY.
  - split; auto. intros l Hl. apply vl_zero_in. now apply in_locs_vars.
  - apply Forall_forall. intros [c l] Hcl. apply (In_nth _ _ (0, (0, 0, 0))%nat) in Hcl as (k & Hk & E). rewrite combine_length, seq_length in Hk. fold N in Hk.
    rewrite combine_nth in E by (rewrite seq_length; auto). inversion E. rewrite seq_nth by (fold N; lia). cbn. split; [fold N; lia|auto].
  - split; [|apply C1].
    apply (matrices_ok drop Fx (locs_vars boxes vlx) (locs_vars boxes vlFx) Good op _ (seq 0 N)); auto; fold N.
    + now rewrite LY.
    + unfold probe_sorted. fold N. rewrite S1. replace (map fst (combine (seq 0 N) (locs_vars boxes vlx))) with (seq 0 N); [reflexivity|].
      clear. unfold N. generalize 0%nat. induction (locs_vars boxes vlx) as [|l r IH]; intros s; cbn; auto. now rewrite <- IH.
Qed.

(** *** C29 for one variable in one box: the block of the matrix that belongs to it.  [Good] may say that all other unknowns are zero,
    they stay so. *)
Theorem C29_onevar drop Fx boxes vlFx vlx vlind b nnodes share op Good m stores :
  let xs := map (fun i => (b, nth vlind vlx 0%nat, i)) (seq 0 nnodes) in
  let ys := map (fun i => (b, nth vlind vlFx 0%nat, i)) (seq 0 nnodes) in
  linear_op nnodes nnodes op -> implements Fx xs ys Good op -> Good (vl_zero boxes vlx m) ->
  In (b, nnodes) boxes -> (vlind < List.length vlx)%nat -> Permutation (concat share) (seq 0 nnodes) ->
  Permutation stores (snd (probe_onevar drop Fx boxes vlFx vlx vlind b nnodes share m)) ->
  matrices_represent drop nnodes op stores /\ (forall l, In l (locs_points boxes vlx) -> fst (probe_onevar drop Fx boxes vlFx vlx vlind b nnodes share m) l = 0).
Proof.
  intros xs ys HO HI HG HB HV HS PS. cbn [probe_onevar fst]. split; [|intros; now apply vl_zero_in].
  assert (LX : List.length xs = nnodes) by (unfold xs; now rewrite map_length, seq_length).
  assert (LY : List.length ys = nnodes) by (unfold ys; now rewrite map_length, seq_length).
  rewrite <- LX. apply (matrices_ok drop Fx xs ys Good op stores (concat share)); auto.
  - now rewrite LX, LY.
  - now rewrite LX, LY.
  - now rewrite LX.
  - rewrite PS. cbn [probe_onevar snd]. fold ys. match goal with |- Permutation ?a ?b => enough (a = b) as -> by reflexivity end.
    rewrite flat_map_concat_eq. apply flat_map_ext_in. intros points Hp.
    destruct (probe_stores drop Fx xs ys Good op) with (work := map (fun i => (i, (b, nth vlind vlx 0%nat, i))) points) (m := vl_zero boxes vlx m) as [_ S1]; auto.
    + unfold xs. apply FinFun.Injective_map_NoDup; [|apply seq_NoDup]. intros i j E. now inversion E.
    + now rewrite LX, LY.
    + split; auto. intros l Hl. unfold xs in Hl. apply in_map_iff in Hl as (i & <- & Hi). apply in_seq in Hi. apply vl_zero_in. apply in_locs_points.
      exists (b, nnodes). cbn. repeat split; auto; [now apply nth_In|lia].
    + apply Forall_forall. intros cl Hcl. apply in_map_iff in Hcl as (i & <- & Hi). cbn [fst snd].
      assert (H : In i (concat share)) by (apply in_concat; eauto). eapply Permutation_in in H; [|exact HS]. apply in_seq in H. split; [lia|].
      unfold xs. erewrite nth_indep by (rewrite map_length, seq_length; lia). rewrite (map_nth (fun i => (b, nth vlind vlx 0%nat, i)) (seq 0 nnodes) 0%nat). now rewrite seq_nth by lia.
    + rewrite S1, map_map. cbn [fst]. now rewrite map_id.
Qed.

(** *** Without LEVEL6_Pragmas the old content of vlx spoils the matrix: the identity on one box with two points, where vlx holds
    (0,5), is read as a matrix with element 5 in line 1, column 0. *)
Definition copyFx : mem -> mem := fun m l => let '(b, v, i) := l in if Nat.eqb v 1 then m (b, 0%nat, i) else m l.
Definition copy_op : (nat -> R) -> nat -> R := fun u k => u k.
Definition mem05 : mem := fun l => let '(b, v, i) := l in if Nat.eqb v 0 && Nat.eqb i 1 then 5 else 0.
Lemma copy_implements n : implements copyFx (map (fun i => (0, 0, i)%nat) (seq 0 n)) (map (fun i => (0, 1, i)%nat) (seq 0 n)) (fun _ => True) copy_op.
Proof.
  split; auto. intros m _. split; auto. split.
  - intros l Hl. apply in_map_iff in Hl as (i & <- & _). reflexivity.
  - intros k Hk. rewrite map_length, seq_length in Hk. erewrite nth_indep by (rewrite map_length, seq_length; auto).
    rewrite (map_nth (fun i => (0, 1, i)%nat) (seq 0 n) 0%nat). rewrite seq_nth by auto. cbn. unfold copy_op.
    erewrite nth_indep by (rewrite map_length, seq_length; auto). rewrite (map_nth (fun i => (0, 0, i)%nat) (seq 0 n) 0%nat). now rewrite seq_nth by auto.
Qed.
Lemma copy_linear n : linear_op n n copy_op.
Proof. split; unfold copy_op; intros; auto. Qed.
Theorem C29_serial_refuted :
  ~ (forall drop Fx boxes vlFx vlx op Good m, NoDup (map fst boxes) -> NoDup vlx -> List.length vlFx = List.length vlx ->
     let N := List.length (locs_points boxes vlx) in
     linear_op N N op -> implements Fx (locs_points boxes vlx) (locs_points boxes vlFx) Good op -> Good m -> Good (vl_zero boxes vlx m) ->
     matrices_represent drop N op (snd (probe_serial drop Fx boxes vlFx vlx m))).
Proof.
  intros H. specialize (H 0 copyFx [(0, 2)%nat] [1%nat] [0%nat] copy_op (fun _ => True) mem05).
  destruct H as (Al & Ac & E1 & E2 & L1 & L2 & P1 & P2 & R1 & R2); auto; try (repeat constructor; cbn; tauto).
  - apply copy_linear.
  - apply (copy_implements 2).
  - cbn in E1. unfold scan in E1. cbn in E1. rewrite Rabs_R1 in E1.
    replace (Rabs 5) with 5 in E1 by (rewrite Rabs_pos_eq; lra).
    destruct (Rle_dec 1 0); [lra|]. destruct (Rle_dec 5 0); [lra|]. cbn in E1.
    rewrite !Rabs_R0 in E1. destruct (Rle_dec 0 0); [|lra]. cbn in E1. inversion E1; subst.
    destruct (R1 (unitv 0) 1%nat) as [_ X]; [cbn; lia|].
    assert (Y : Sig 2 (fun c => elem [[(0%nat, 1)]; [(0%nat, 5); (1%nat, 1)]] 1 c * unitv 0 c) = copy_op (unitv 0) 1).
    { apply X. intros c Hc. unfold copy_op, unitv. destruct c as [|[|c]]; [left; reflexivity|right; cbn; rewrite Rabs_R1; lra|cbn in Hc; lia]. }
    unfold Sig, elem, entry, lsum, copy_op, unitv in Y. cbn in Y. lra.
Qed.
Print Assumptions C29_numbering. Print Assumptions C29_parallel. Print Assumptions C29_serial_partial. Print Assumptions C29_sorted. Print Assumptions C29_onevar. Print Assumptions C29_serial_refuted.

(** *** Examples: the identity on one box with two points meets the hypotheses, with two threads that take one point each *)
Example ex_parallel : matrices_represent 0 2 copy_op (snd (probe_parallel 0 copyFx [(0, 2)%nat] [1%nat] [0%nat] (fun _ => [[1%nat]; [0%nat]]) mem05)).
Proof.
  apply (C29_parallel 0 copyFx [(0, 2)%nat] [1%nat] [0%nat] (fun _ => [[1%nat]; [0%nat]]) copy_op (fun _ => True) mem05); auto.
  - repeat constructor; cbn; tauto.
  - repeat constructor; cbn; tauto.
  - apply copy_linear.
  - apply (copy_implements 2).
  - intros bn [<-|[]]. cbn. apply perm_swap.
Qed.
Example ex_serial : matrices_represent 0 2 copy_op (snd (probe_serial 0 copyFx [(0, 2)%nat] [1%nat] [0%nat] (fun _ => 0))).
Proof.
  apply (C29_serial_partial 0 copyFx [(0, 2)%nat] [1%nat] [0%nat] copy_op (fun _ => True) (fun _ => 0)); auto.
  - repeat constructor; cbn; tauto.
  - repeat constructor; cbn; tauto.
  - apply copy_linear.
  - apply (copy_implements 2).
Qed.
Example ex_onevar : matrices_represent 0 3 copy_op (snd (probe_onevar 0 copyFx [(0, 3)%nat] [1%nat] [0%nat] 0 0 3 [[0; 1; 2]%nat] mem05)).
Proof.
  apply (C29_onevar 0 copyFx [(0, 3)%nat] [1%nat] [0%nat] 0 0 3 [[0; 1; 2]%nat] copy_op (fun _ => True) mem05); auto.
  - apply copy_linear.
  - apply (copy_implements 3).
  - now left.
Qed.
Example ex_sorted_work : combine (seq 0 4) (locs_vars [(7, 2)%nat] [3; 9]%nat) = [(0, (7, 3, 0)); (1, (7, 3, 1)); (2, (7, 9, 0)); (3, (7, 9, 1))]%nat.
Proof. reflexivity. Qed.
Example ex_points_work : work_all [(7, 2)%nat; (8, 1)%nat] [3; 9]%nat =
  [(0, (7, 3, 0)); (1, (7, 9, 0)); (2, (7, 3, 1)); (3, (7, 9, 1)); (4, (8, 3, 0)); (5, (8, 9, 0))]%nat.
Proof. reflexivity. Qed.
