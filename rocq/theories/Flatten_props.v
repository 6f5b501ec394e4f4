(** C30: copies between variable lists and arrays. *)
From Verif Require Import Base Loops Index_props Flatten_model Flatten_spec Flatten_proofs Blocks_props.

Lemma flat_uniform {A B} (f : A -> list B) m l : (forall x, In x l -> List.length (f x) = m) -> forall k r x, nth_error l k = Some x -> r < m ->
  nth_error (flat_map f l) (m * k + r) = nth_error (f x) r.
Proof.
  induction l as [|a l IH]; intros H [|k] r x E R; try discriminate; cbn [flat_map nth_error] in *.
  - injection E as ->. rewrite Nat.mul_0_r. apply nth_error_app1. rewrite H; auto. now left.
  - rewrite nth_error_app2; rewrite (H a) by (now left); [|nia]. replace (m * S k + r - m) with (m * k + r) by nia.
    apply IH; auto. intros y Hy. apply H. now right.
Qed.
Lemma flat_uniform_len {A B} (f : A -> list B) m l : (forall x, In x l -> List.length (f x) = m) -> List.length (flat_map f l) = m * List.length l.
Proof. induction l as [|a l IH]; intros H; cbn [flat_map List.length]; [lia|]. rewrite app_length, H by (now left). rewrite IH; [lia|]. intros. apply H. now right. Qed.
Lemma nth_seq n k : k < n -> nth_error (seq 0 n) k = Some k.
Proof. intros H. rewrite (nth_error_nth' _ 0) by (now rewrite seq_length). now rewrite seq_nth. Qed.
Definition isact (g : fgrid) (b : nat) : bool := match nth_error g b with Some (a, _) => a | None => false end.
Lemma pts_S g b : b < List.length g -> pts_before g (S b) = pts_before g b + (if isact g b then nnodes g b else 0).
Proof.
  revert b. induction g as [|[a nn] g IH]; intros b H; cbn [List.length] in H; [lia|]. destruct b as [|b].
  - unfold isact, nnodes. cbn. destruct g; destruct a; cbn; lia.
  - specialize (IH b ltac:(lia)). change (pts_before ((a, nn) :: g) (S (S b))) with ((if a then nn else 0) + pts_before g (S b)). change (pts_before ((a, nn) :: g) (S b)) with ((if a then nn else 0) + pts_before g b). rewrite IH. change (isact ((a, nn) :: g) (S b)) with (isact g b). change (nnodes ((a, nn) :: g) (S b)) with (nnodes g b). lia.
Qed.
Lemma actives_In g b : In b (actives g) <-> exists nn, nth_error g b = Some (true, nn).
Proof.
  unfold actives. rewrite filter_In, in_seq. split.
  - intros (_ & H). destruct (nth_error g b) as [[a nn]|]; [|discriminate]. subst a. eauto.
  - intros (nn & E). rewrite E. split; auto. assert (b < List.length g) by (apply nth_error_Some; congruence). lia.
Qed.
Lemma nnodes_eq g b a nn : nth_error g b = Some (a, nn) -> nnodes g b = nn.
Proof. unfold nnodes. now intros ->. Qed.
Section B.
Context {B : Type}.
Variables (g : fgrid) (f : nat -> list B) (c : nat).
Hypothesis flen : forall b, List.length (f b) = c * nnodes g b.
Lemma flat_pre b : b <= List.length g -> List.length (flat_map f (filter (isact g) (seq 0 b))) = c * pts_before g b.
Proof.
  induction b as [|b IH]; intros H; [destruct g; cbn; lia|]. rewrite seq_S, filter_app, flat_map_app, app_length, IH, pts_S by lia. cbn [filter Nat.add].
  destruct (isact g b); cbn [flat_map List.length]; rewrite ?app_nil_r, ?flen; lia.
Qed.
Lemma flat_boxes_len : List.length (flat_map f (actives g)) = c * total g.
Proof. apply (flat_pre (List.length g)). lia. Qed.
Lemma flat_boxes b nn r : nth_error g b = Some (true, nn) -> r < c * nn -> nth_error (flat_map f (actives g)) (c * pts_before g b + r) = nth_error (f b) r.
Proof.
  intros E R. assert (L : b < List.length g) by (apply nth_error_Some; congruence).
  unfold actives. change (fun b0 => match nth_error g b0 with Some (a, _) => a | None => false end) with (isact g).
  replace (List.length g) with (b + S (List.length g - b - 1)) by lia. rewrite seq_app, filter_app, flat_map_app.
  rewrite nth_error_app2; rewrite flat_pre by lia; [|lia]. rewrite Nat.add_0_l. cbn [seq filter]. unfold isact at 1. rewrite E. cbn [flat_map].
  replace (c * pts_before g b + r - c * pts_before g b) with r by lia. apply nth_error_app1. rewrite flen. now rewrite (nnodes_eq _ _ _ _ E).
Qed.
End B.
Lemma actives_NoDup g : NoDup (actives g).
Proof. apply NoDup_filter, seq_NoDup. Qed.
Definition sl_point (g : fgrid) (n : nat) := flat_map (fun b => flat_map (fun i => map (fun j => (b, i, j)) (seq 0 n)) (seq 0 (nnodes g b))) (actives g).
Definition sl_var (g : fgrid) (n : nat) := flat_map (fun b => flat_map (fun j => map (fun i => (b, i, j)) (seq 0 (nnodes g b))) (seq 0 n)) (actives g).
Definition sl_outer (g : fgrid) (n : nat) := flat_map (fun j => flat_map (fun b => map (fun i => (b, i, j)) (seq 0 (nnodes g b))) (actives g)) (seq 0 n).
Lemma map_seq_len {A} (h : nat -> A) n : List.length (map h (seq 0 n)) = n.
Proof. now rewrite map_length, seq_length. Qed.
Lemma nth_map_seq {A} (h : nat -> A) n k : k < n -> nth_error (map h (seq 0 n)) k = Some (h k).
Proof. intros H. rewrite nth_error_map, nth_seq; auto. Qed.
Lemma NoDup_map_seq {A} (h : nat -> A) n : (forall a b, h a = h b -> a = b) -> NoDup (map h (seq 0 n)).
Proof. intros H. apply map_NoDup_inj; [apply seq_NoDup|auto]. Qed.
Ltac inall := repeat match goal with
  | H : In _ (flat_map _ _) |- _ => apply in_flat_map in H; destruct H as (? & ? & ?)
  | H : In _ (map _ _) |- _ => apply in_map_iff in H; destruct H as (? & ? & ?)
  | H : In _ (seq _ _) |- _ => apply in_seq in H
  | H : In _ (actives _) |- _ => apply actives_In in H; destruct H as (? & H)
  end.

Lemma tr_point g n : traversal g n (sl_point g n) (by_point g n).
Proof.
  assert (FL : forall b, List.length (flat_map (fun i => map (fun j => (b, i, j)) (seq 0 n)) (seq 0 (nnodes g b))) = n * nnodes g b).
  { intros b. rewrite (flat_uniform_len _ n); [now rewrite seq_length|]. intros. apply map_seq_len. }
  split.
  - now apply flat_boxes_len.
  - intros b i j. split.
    + intros H. unfold sl_point in H. inall. injection H1 as -> -> ->. rewrite (nnodes_eq _ _ _ _ H) in H0. split; [eexists; split; eauto|]; lia.
    + intros ((nn & E & Hi) & Hj). apply in_flat_map. exists b. split; [apply actives_In; eauto|]. apply in_flat_map. exists i. rewrite (nnodes_eq _ _ _ _ E).
      split; [apply in_seq; lia|]. apply in_map_iff. exists j. split; auto. apply in_seq. lia.
  - intros b i j ((nn & E & Hi) & Hj). unfold sl_point, by_point. rewrite <- Nat.add_assoc. rewrite (flat_boxes g _ n FL b nn) by (auto; nia).
    rewrite (flat_uniform _ n) with (x := i); auto.
    + now apply nth_map_seq.
    + intros. apply map_seq_len.
    + apply nth_seq. now rewrite (nnodes_eq _ _ _ _ E).
  - apply NoDup_flat; [apply actives_NoDup| |].
    + intros b _. apply NoDup_flat; [apply seq_NoDup| |].
      * intros i _. apply NoDup_map_seq. congruence.
      * intros. inall. congruence.
    + intros. inall. congruence.
Qed.
Lemma tr_var g n : traversal g n (sl_var g n) (by_var g n).
Proof.
  assert (FL : forall b, List.length (flat_map (fun j => map (fun i => (b, i, j)) (seq 0 (nnodes g b))) (seq 0 n)) = n * nnodes g b).
  { intros b. rewrite (flat_uniform_len _ (nnodes g b)); [rewrite seq_length; lia|]. intros. apply map_seq_len. }
  split.
  - now apply flat_boxes_len.
  - intros b i j. split.
    + intros H. unfold sl_var in H. inall. injection H1 as -> -> ->. rewrite (nnodes_eq _ _ _ _ H) in H2. split; [eexists; split; eauto|]; lia.
    + intros ((nn & E & Hi) & Hj). apply in_flat_map. exists b. split; [apply actives_In; eauto|]. apply in_flat_map. exists j. rewrite (nnodes_eq _ _ _ _ E).
      split; [apply in_seq; lia|]. apply in_map_iff. exists i. split; auto. apply in_seq. lia.
  - intros b i j ((nn & E & Hi) & Hj). unfold sl_var, by_var. rewrite <- Nat.add_assoc. pose proof (nnodes_eq _ _ _ _ E) as NN.
    rewrite (flat_boxes g _ n FL b nn) by (auto; rewrite NN; nia).
    etransitivity; [apply (flat_uniform _ (nnodes g b)) with (x := j)|].
    + intros. apply map_seq_len.
    + now apply nth_seq.
    + lia.
    + apply (nth_map_seq (fun i => (b, i, j))). lia.
  - apply NoDup_flat; [apply actives_NoDup| |].
    + intros b _. apply NoDup_flat; [apply seq_NoDup| |].
      * intros i _. apply NoDup_map_seq. congruence.
      * intros. inall. congruence.
    + intros. inall. congruence.
Qed.
Lemma tr_outer g n : traversal g n (sl_outer g n) (by_var_outer g n).
Proof.
  assert (FB : forall j b : nat, List.length (map (fun i => (b, i, j)) (seq 0 (nnodes g b))) = 1 * nnodes g b) by (intros; rewrite map_seq_len; lia).
  assert (FL : forall j : nat, List.length (flat_map (fun b => map (fun i => (b, i, j)) (seq 0 (nnodes g b))) (actives g)) = total g).
  { intros j. rewrite (flat_boxes_len g _ 1 (FB j)). lia. }
  split.
  - unfold sl_outer. rewrite (flat_uniform_len _ (total g)); [rewrite seq_length; lia|]. auto.
  - intros b i j. split.
    + intros H. unfold sl_outer in H. inall. injection H1 as -> -> ->. rewrite (nnodes_eq _ _ _ _ H0) in H2. split; [eexists; split; eauto|]; lia.
    + intros ((nn & E & Hi) & Hj). apply in_flat_map. exists j. split; [apply in_seq; lia|]. apply in_flat_map. exists b. rewrite (nnodes_eq _ _ _ _ E).
      split; [apply actives_In; eauto|]. apply in_map_iff. exists i. split; auto. apply in_seq. lia.
  - intros b i j ((nn & E & Hi) & Hj). unfold sl_outer, by_var_outer. rewrite <- Nat.add_assoc. pose proof (nnodes_eq _ _ _ _ E) as NN.
    assert (G := flat_boxes g _ 1 (FB j) b nn i E ltac:(lia)). rewrite Nat.mul_1_l in G.
    rewrite (flat_uniform _ (total g)) with (x := j); auto.
    + rewrite G. apply (nth_map_seq (fun i => (b, i, j))). lia.
    + now apply nth_seq.
    + rewrite <- (FL j). apply nth_error_Some. rewrite G. rewrite (nth_map_seq (fun i => (b, i, j))) by lia. discriminate.
  - apply NoDup_flat; [apply seq_NoDup| |].
    + intros b _. apply NoDup_flat; [apply actives_NoDup| |].
      * intros i _. apply NoDup_map_seq. congruence.
      * intros. inall. congruence.
    + intros. inall. congruence.
Qed.

Section T.
Variable F : Type.
Lemma into_point g vl m x : copy_varlist_into_array F g vl m x = (do s <- forl (sl_point g (List.length vl)) (putl F m vl) (x, 0); Ok (fst s)).
Proof.
  unfold copy_varlist_into_array, sl_point, for_nat. f_equal. rewrite forl_flat. apply forl_ext. intros b s _. rewrite forl_flat, Nat.sub_0_r. apply forl_ext.
  intros i s1 _. rewrite forl_map, Nat.sub_0_r. reflexivity.
Qed.
Lemma back_point g vl m x : copy_array_into_varlist F g x vl m = (do s <- forl (sl_point g (List.length vl)) (getl F x vl) (m, 0); Ok (fst s)).
Proof.
  unfold copy_array_into_varlist, sl_point, for_nat. f_equal. rewrite forl_flat. apply forl_ext. intros b s _. rewrite forl_flat, Nat.sub_0_r. apply forl_ext.
  intros i s1 _. rewrite forl_map, Nat.sub_0_r. reflexivity.
Qed.
Lemma into_var g vl m x : copy_varlist_into_array_forSortedVars F g vl m x = (do s <- forl (sl_var g (List.length vl)) (putl F m vl) (x, 0); Ok (fst s)).
Proof.
  unfold copy_varlist_into_array_forSortedVars, sl_var, for_nat. f_equal. rewrite forl_flat. apply forl_ext. intros b s _. rewrite forl_flat, Nat.sub_0_r. apply forl_ext.
  intros i s1 _. rewrite forl_map, Nat.sub_0_r. reflexivity.
Qed.
Lemma back_var g vl m x : copy_array_into_varlist_forSortedVars F g x vl m = (do s <- forl (sl_var g (List.length vl)) (getl F x vl) (m, 0); Ok (fst s)).
Proof.
  unfold copy_array_into_varlist_forSortedVars, sl_var, for_nat. f_equal. rewrite forl_flat. apply forl_ext. intros b s _. rewrite forl_flat, Nat.sub_0_r. apply forl_ext.
  intros i s1 _. rewrite forl_map, Nat.sub_0_r. reflexivity.
Qed.
Lemma into_outer g vl m x : copy_vl_into_array_outervlloop F g vl m x = (do s <- forl (sl_outer g (List.length vl)) (putl F m vl) (x, 0); Ok (fst s)).
Proof.
  unfold copy_vl_into_array_outervlloop, sl_outer, for_nat. f_equal. rewrite forl_flat, Nat.sub_0_r. apply forl_ext. intros b s _. rewrite forl_flat. apply forl_ext.
  intros i s1 _. rewrite forl_map, Nat.sub_0_r. reflexivity.
Qed.
Lemma back_outer g vl m x : copy_array_into_vl_outervlloop F g x vl m = (do s <- forl (sl_outer g (List.length vl)) (getl F x vl) (m, 0); Ok (fst s)).
Proof.
  unfold copy_array_into_vl_outervlloop, sl_outer, for_nat. f_equal. rewrite forl_flat, Nat.sub_0_r. apply forl_ext. intros b s _. rewrite forl_flat. apply forl_ext.
  intros i s1 _. rewrite forl_map, Nat.sub_0_r. reflexivity.
Qed.
(** every property of a pair of copy functions for a layout *)
Definition layout_ok (g : fgrid) (vl : list nat) (pos : nat -> nat -> nat -> nat)
    (into : fmem F -> list F -> res (list F)) (back : list F -> fmem F -> res (fmem F)) : Prop :=
  bijective_layout g (List.length vl) pos /\ copies_into g vl pos into /\ copies_back g vl pos back /\
  round_trip g vl into back /\ array_round_trip g vl into back.
Lemma layout_from g vl pos sl into back : traversal g (List.length vl) sl pos ->
  (forall m x, into m x = (do s <- forl sl (putl F m vl) (x, 0); Ok (fst s))) ->
  (forall x m, back x m = (do s <- forl sl (getl F x vl) (m, 0); Ok (fst s))) -> layout_ok g vl pos into back.
Proof.
  intros T EI EB. split; [eapply tr_bij; eauto|]. split; [|split; [|split]].
  - intros m x St L. rewrite EI. now apply (into_ok F g vl sl pos).
  - intros m x St N L. rewrite EB. now apply (back_ok F g vl sl pos).
  - intros m x St L. destruct (trip_ok F g vl sl pos T m x St L) as (x' & m' & A & B & C). exists x', m'. rewrite EI, EB. auto.
  - intros m x y St N L Ly. destruct (array_trip_ok F g vl sl pos T m x y St N L Ly) as (m' & A & B). exists m'. rewrite EI, EB. auto.
Qed.
(** For every grid (with any boxes inactive), every variable list and every memory in which the listed
    variables have storage: the arrays have the documented layout without gaps, and the round trips restore. *)
Theorem C30_by_point g vl : layout_ok g vl (by_point g (List.length vl))
  (copy_varlist_into_array F g vl) (fun x m => copy_array_into_varlist F g x vl m).
Proof. apply (layout_from _ _ _ _ _ _ (tr_point g (List.length vl))); intros; [apply into_point|apply back_point]. Qed.
Theorem C30_sorted_vars g vl : layout_ok g vl (by_var g (List.length vl))
  (copy_varlist_into_array_forSortedVars F g vl) (fun x m => copy_array_into_varlist_forSortedVars F g x vl m).
Proof. apply (layout_from _ _ _ _ _ _ (tr_var g (List.length vl))); intros; [apply into_var|apply back_var]. Qed.
Theorem C30_outer_vars g vl : layout_ok g vl (by_var_outer g (List.length vl))
  (copy_vl_into_array_outervlloop F g vl) (fun x m => copy_array_into_vl_outervlloop F g x vl m).
Proof. apply (layout_from _ _ _ _ _ _ (tr_outer g (List.length vl))); intros; [apply into_outer|apply back_outer]. Qed.
End T.
(** ** one variable in a subbox *)
Lemma Ind_inj i j k i' j' k' n1 n2 : i < n1 -> j < n2 -> i' < n1 -> j' < n2 -> Ind_n1n2 i j k n1 n2 = Ind_n1n2 i' j' k' n1 n2 -> i = i' /\ j = j' /\ k = k'.
Proof.
  unfold Ind_n1n2. intros A B A' B' E.
  assert (E1 : i = i' /\ j + n2 * k = j' + n2 * k'). { revert A A' E. generalize (j + n2 * k) (j' + n2 * k'). clear. intros p q A A' E. assert (p = q) by nia. nia. }
  destruct E1 as [-> E2]. assert (k = k') by nia. nia.
Qed.
Lemma Ind_lt i j k n1 n2 n3 : i < n1 -> j < n2 -> k < n3 -> Ind_n1n2 i j k n1 n2 < n1 * n2 * n3.
Proof. unfold Ind_n1n2. intros. assert (j + n2 * k < n2 * n3) by nia. nia. Qed.
Lemma Ind_onto n1 n2 n3 x : x < n1 * n2 * n3 -> exists i j k, i < n1 /\ j < n2 /\ k < n3 /\ Ind_n1n2 i j k n1 n2 = x.
Proof.
  intros H. assert (P1 : 0 < n1) by nia. assert (P2 : 0 < n2) by nia. exists (x mod n1), (x / n1 mod n2), (x / n1 / n2).
  pose proof (Nat.div_mod x n1 ltac:(lia)). pose proof (Nat.mod_upper_bound x n1 ltac:(lia)).
  pose proof (Nat.div_mod (x / n1) n2 ltac:(lia)). pose proof (Nat.mod_upper_bound (x / n1) n2 ltac:(lia)).
  repeat split; auto; [|unfold Ind_n1n2; lia]. assert (x / n1 < n2 * n3) by nia. nia.
Qed.
Definition sbpts (i1 i2 j1 j2 k1 k2 : nat) : list (nat * nat * nat) :=
  flat_map (fun k => flat_map (fun j => map (fun i => (i, j, k)) (seq i1 (i2 - i1))) (seq j1 (j2 - j1))) (seq k1 (k2 - k1)).
Definition in_sb (i1 i2 j1 j2 k1 k2 i j k : nat) : Prop := i1 <= i < i2 /\ j1 <= j < j2 /\ k1 <= k < k2.
Lemma sbpts_In i1 i2 j1 j2 k1 k2 i j k : In (i, j, k) (sbpts i1 i2 j1 j2 k1 k2) <-> in_sb i1 i2 j1 j2 k1 k2 i j k.
Proof.
  unfold sbpts, in_sb. split.
  - intros H. inall. injection H1 as -> -> ->. lia.
  - intros H. apply in_flat_map. exists k. split; [apply in_seq; lia|]. apply in_flat_map. exists j. split; [apply in_seq; lia|].
    apply in_map_iff. exists i. split; auto. apply in_seq. lia.
Qed.
Lemma sbpts_NoDup i1 i2 j1 j2 k1 k2 : NoDup (sbpts i1 i2 j1 j2 k1 k2).
Proof.
  apply NoDup_flat; [apply seq_NoDup| |].
  - intros k _. apply NoDup_flat; [apply seq_NoDup| |].
    + intros j _. apply map_NoDup_inj; [apply seq_NoDup|congruence].
    + intros. inall. congruence.
  - intros. inall. congruence.
Qed.
Section Sc.
Context {F P : Type}.
(** writing val p to position d p of an array, for all p of a list *)
Lemma scatter (pts : list P) (d : P -> nat) (rd : P -> res F) (val : P -> option F) : forall x,
  (forall p, In p pts -> d p < List.length x /\ exists a, rd p = Ok a /\ val p = Some a) -> NoDup (map d pts) ->
  exists x', forl pts (fun p x => do a <- rd p; wra F x (d p) a) x = Ok x' /\ List.length x' = List.length x /\
    (forall p, In p pts -> nth_error x' (d p) = val p) /\ (forall k, ~ In k (map d pts) -> nth_error x' k = nth_error x k).
Proof.
  induction pts as [|p pts IH]; intros x H N; cbn [forl].
  - exists x. repeat split; auto. intros p [].
  - destruct (H p) as (L & a & R & V); [now left|]. rewrite R. cbn [rbind]. unfold wra at 1. rewrite (proj2 (Nat.ltb_lt _ _) L). cbn [rbind].
    inversion N; subst. destruct (IH (upd x (d p) a)) as (x' & E & LL & W & U); auto.
    { intros q Hq. rewrite upd_length. apply H. now right. }
    exists x'. rewrite upd_length in LL. split; auto. split; auto. split.
    + intros q [<-|Hq]; auto. rewrite U by auto. rewrite nth_error_upd_eq; auto.
    + intros k Hk. cbn in Hk. rewrite U by tauto. apply nth_error_upd_ne. tauto.
Qed.
(** the same for the array of one variable *)
Lemma scatter_m (pts : list P) b v (d : P -> nat) (rd : P -> res F) (val : P -> option F) : forall m l, m b v = Some l ->
  (forall p, In p pts -> d p < List.length l /\ exists a, rd p = Ok a /\ val p = Some a) -> NoDup (map d pts) ->
  exists m', forl pts (fun p m => do a <- rd p; wrp F m b v (d p) a) m = Ok m' /\
    (exists l', m' b v = Some l' /\ List.length l' = List.length l) /\
    (forall p, In p pts -> getv F m' b v (d p) = val p) /\
    (forall b' v' k, ~ (b' = b /\ v' = v /\ In k (map d pts)) -> getv F m' b' v' k = getv F m b' v' k).
Proof.
  induction pts as [|p pts IH]; intros m l Hl H N; cbn [forl].
  - exists m. repeat split; eauto. intros p [].
  - destruct (H p) as (L & a & R & V); [now left|]. rewrite R. cbn [rbind].
    destruct (wrp_ok F m b v (d p) a l Hl L) as (m1 & E1 & S1 & V1 & U1). rewrite E1. cbn [rbind].
    specialize (S1 b v). rewrite Hl in S1. destruct (m1 b v) as [l1|] eqn:Hl1; [|contradiction].
    inversion N; subst. destruct (IH m1 l1 Hl1) as (m' & E & (l' & Hl' & LL) & W & U); auto.
    { intros q Hq. rewrite <- S1. apply H. now right. }
    exists m'. split; auto. split; [exists l'; split; auto; congruence|]. split.
    + intros q [<-|Hq]; auto. rewrite U by tauto. congruence.
    + intros b' v' k Hk. cbn in Hk. rewrite U by tauto. apply U1. intros Q. injection Q as -> -> ->. tauto.
Qed.
End Sc.
Section T2.
Variable F : Type.
Variables n1 n2 n3 i1 i2 j1 j2 k1 k2 : nat.
(** the subbox lies in the box (C18_subboxes_tile) *)
Hypothesis Hi : i1 <= i2 <= n1.
Hypothesis Hj : j1 <= j2 <= n2.
Hypothesis Hk : k1 <= k2 <= n3.
Definition sb_size : nat := (i2 - i1) * (j2 - j1) * (k2 - k1).
(** position in the array of point (i,j,k) of the subbox *)
Definition sb_pos (i j k : nat) : nat := (i - i1) + (i2 - i1) * ((j - j1) + (j2 - j1) * (k - k1)).
Notation insb := (in_sb i1 i2 j1 j2 k1 k2).
Lemma sb_pos_lt i j k : insb i j k -> sb_pos i j k < sb_size.
Proof. intros (A & B & C). apply (Ind_lt (i - i1) (j - j1) (k - k1)); lia. Qed.
Lemma sb_pos_inj i j k i' j' k' : insb i j k -> insb i' j' k' -> sb_pos i j k = sb_pos i' j' k' -> i = i' /\ j = j' /\ k = k'.
Proof. intros (A & B & C) (A' & B' & C') E. apply Ind_inj in E; lia. Qed.
Lemma sb_pos_onto x : x < sb_size -> exists i j k, insb i j k /\ sb_pos i j k = x.
Proof.
  intros H. destruct (Ind_onto _ _ _ _ H) as (i & j & k & A & B & C & E). exists (i1 + i), (j1 + j), (k1 + k). split; [unfold in_sb; lia|].
  unfold sb_pos. unfold Ind_n1n2 in E. rewrite <- E. f_equal; [lia|]. f_equal. f_equal; [lia|]. f_equal. lia.
Qed.
Notation pts := (sbpts i1 i2 j1 j2 k1 k2).
Definition dpos (p : nat * nat * nat) := sb_pos (fst (fst p)) (snd (fst p)) (snd p).
Definition spos (p : nat * nat * nat) := Ind_n1n2 (fst (fst p)) (snd (fst p)) (snd p) n1 n2.
Lemma dpos_NoDup : NoDup (map dpos pts).
Proof.
  apply map_NoDup_inj; [apply sbpts_NoDup|]. intros [[i j] k] [[i' j'] k'] A B E. apply sbpts_In in A, B. change (sb_pos i j k = sb_pos i' j' k') in E. apply sb_pos_inj in E; auto.
  destruct E as (-> & -> & ->). reflexivity.
Qed.
Lemma spos_NoDup : NoDup (map spos pts).
Proof.
  apply map_NoDup_inj; [apply sbpts_NoDup|]. intros [[i j] k] [[i' j'] k'] A B E. apply sbpts_In in A, B. unfold in_sb in *. change (Ind_n1n2 i j k n1 n2 = Ind_n1n2 i' j' k' n1 n2) in E.
  apply Ind_inj in E; try lia. destruct E as (-> & -> & ->). reflexivity.
Qed.
Lemma sb_into_flat m b v x : subbox_into_array F m b v n1 n2 i1 i2 j1 j2 k1 k2 x =
  forl pts (fun p x => do a <- rdp F m b v (spos p); wra F x (dpos p) a) x.
Proof.
  unfold subbox_into_array, sbpts, for_nat. rewrite forl_flat. apply forl_ext. intros k s _. rewrite forl_flat. apply forl_ext. intros j s1 _. rewrite forl_map. reflexivity.
Qed.
Lemma sb_back_flat m b v x : array_into_subbox F x b v n1 n2 i1 i2 j1 j2 k1 k2 m =
  forl pts (fun p m => do a <- rda F x (dpos p); wrp F m b v (spos p) a) m.
Proof.
  unfold array_into_subbox, sbpts, for_nat. rewrite forl_flat. apply forl_ext. intros k s _. rewrite forl_flat. apply forl_ext. intros j s1 _. rewrite forl_map. reflexivity.
Qed.
(** The copies between one variable in one subbox and an array use the layout [sb_pos], which fills the
    array without gaps or collisions; only the points of the subbox change on the way back. *)
Theorem C30_subbox m b v l : m b v = Some l -> List.length l = n1 * n2 * n3 ->
  ((forall i j k, insb i j k -> sb_pos i j k < sb_size) /\
   (forall i j k i' j' k', insb i j k -> insb i' j' k' -> sb_pos i j k = sb_pos i' j' k' -> i = i' /\ j = j' /\ k = k') /\
   (forall x, x < sb_size -> exists i j k, insb i j k /\ sb_pos i j k = x)) /\
  (forall x, sb_size <= List.length x -> exists x', subbox_into_array F m b v n1 n2 i1 i2 j1 j2 k1 k2 x = Ok x' /\
     List.length x' = List.length x /\
     (forall i j k, insb i j k -> nth_error x' (sb_pos i j k) = nth_error l (i + n1 * (j + n2 * k))) /\
     (forall q, sb_size <= q -> nth_error x' q = nth_error x q)) /\
  (forall x, sb_size <= List.length x -> exists m', array_into_subbox F x b v n1 n2 i1 i2 j1 j2 k1 k2 m = Ok m' /\
     (forall i j k, insb i j k -> getv F m' b v (i + n1 * (j + n2 * k)) = nth_error x (sb_pos i j k)) /\
     (forall b' v' q, ~ (b' = b /\ v' = v /\ exists i j k, insb i j k /\ q = i + n1 * (j + n2 * k)) -> getv F m' b' v' q = getv F m b' v' q)).
Proof.
  intros Hm Hl. split; [split; [exact sb_pos_lt|split; [exact sb_pos_inj|exact sb_pos_onto]]|].
  assert (RNG : forall i j k, insb i j k -> Ind_n1n2 i j k n1 n2 < List.length l).
  { intros i j k (A & B & C). rewrite Hl. apply Ind_lt; lia. }
  split.
  - intros x Lx. rewrite sb_into_flat.
    destruct (scatter pts dpos (fun p => rdp F m b v (spos p)) (fun p => nth_error l (spos p)) x) as (x' & E & LL & W & U).
    + intros [[i j] k] H. apply sbpts_In in H. pose proof (sb_pos_lt _ _ _ H). split; [unfold dpos; cbn [fst snd]; lia|].
      unfold rdp, spos. cbn [fst snd]. rewrite Hm. specialize (RNG _ _ _ H).
      destruct (nth_error l (Ind_n1n2 i j k n1 n2)) eqn:Q; [eauto|]. apply nth_error_None in Q. lia.
    + apply dpos_NoDup.
    + exists x'. split; auto. split; auto. split.
      * intros i j k H. apply (W (i, j, k)). now apply sbpts_In.
      * intros q Hq. apply U. intros I. apply in_map_iff in I. destruct I as ([[i j] k] & <- & I). apply sbpts_In in I. pose proof (sb_pos_lt _ _ _ I).
        unfold dpos in Hq. cbn [fst snd] in Hq. lia.
  - intros x Lx. rewrite sb_back_flat.
    destruct (scatter_m pts b v spos (fun p => rda F x (dpos p)) (fun p => nth_error x (dpos p)) m l Hm) as (m' & E & _ & W & U).
    + intros [[i j] k] H. apply sbpts_In in H. pose proof (sb_pos_lt _ _ _ H). split; [unfold spos; cbn [fst snd]; auto|].
      unfold rda, dpos. cbn [fst snd]. destruct (nth_error x (sb_pos i j k)) eqn:Q; [eauto|]. apply nth_error_None in Q. lia.
    + apply spos_NoDup.
    + exists m'. split; auto. split.
      * intros i j k H. apply (W (i, j, k)). now apply sbpts_In.
      * intros b' v' q NQ. apply U. intros (A & B & I). apply NQ. split; auto. split; auto.
        apply in_map_iff in I. destruct I as ([[i j] k] & <- & I). apply sbpts_In in I. exists i, j, k. split; auto.
Qed.
End T2.
Print Assumptions C30_subbox.
Example C30_subbox_example :
  subbox_into_array nat (fun _ _ => Some (seq 0 24)) 0 0 4 3 1 3 0 2 1 2 (repeat 99 5) = Ok [13; 14; 17; 18; 99].
Proof. reflexivity. Qed.
Print Assumptions C30_by_point.
Print Assumptions C30_sorted_vars.
Print Assumptions C30_outer_vars.

(** two boxes of 2 and 3 points around an inactive one, variables 7 and 4 *)
Definition ex_g : fgrid := [(true, 2); (false, 5); (true, 3)].
Definition ex_m : fmem nat := fun b v => if (b =? 1) then None else Some (map (fun i => 100 * b + 10 * v + i) (seq 0 (nnodes ex_g b))).
Example C30_example : stored nat ex_g [7; 4] ex_m /\
  copy_varlist_into_array nat ex_g [7; 4] ex_m (repeat 0 10) = Ok [70; 40; 71; 41; 270; 240; 271; 241; 272; 242] /\
  copy_varlist_into_array_forSortedVars nat ex_g [7; 4] ex_m (repeat 0 10) = Ok [70; 71; 40; 41; 270; 271; 272; 240; 241; 242] /\
  copy_vl_into_array_outervlloop nat ex_g [7; 4] ex_m (repeat 0 10) = Ok [70; 71; 270; 271; 272; 40; 41; 240; 241; 242].
Proof.
  split; [|repeat split; reflexivity]. intros b n v E H. destruct b as [|[|[|b]]]; cbn in E; try discriminate.
  - injection E as <-. eexists. split; reflexivity.
  - injection E as <-. eexists. split; reflexivity.
  - destruct b; discriminate.
Qed.
