From Verif Require Import Base Loops Flatten_model Flatten_spec Blocks_props Bfaces_proofs.

Definition ok3 (sl : list (nat * nat * nat)) (P : nat -> nat -> nat -> Prop) : Prop := forall b i j, In (b, i, j) sl -> P b i j.
Lemma ok3_cons b i j sl P : ok3 ((b, i, j) :: sl) P -> P b i j /\ ok3 sl P.
Proof. intros H. split; [apply H; now left|]. intros b' i' j' I. apply H. now right. Qed.

Section P.
Variable F : Type.
Notation fmem := (fmem F).
Notation getv := (getv F).
Definition putl (m : fmem) (vl : list nat) (t : nat * nat * nat) := put1 F m vl (fst (fst t)) (snd (fst t)) (snd t).
Definition getl (x : list F) (vl : list nat) (t : nat * nat * nat) := get1 F x vl (fst (fst t)) (snd (fst t)) (snd t).

Lemma rdp_getv m b v i a : getv m b v i = Some a -> rdp F m b v i = Ok a.
Proof. unfold Flatten_spec.getv, rdp. destruct (m b v); [|discriminate]. now intros ->. Qed.

Lemma pack_ok m vl sl : forall x line, ok3 sl (fun b i j => exists v a, nth_error vl j = Some v /\ getv m b v i = Some a) ->
  line + List.length sl <= List.length x ->
  exists x', forl sl (putl m vl) (x, line) = Ok (x', line + List.length sl) /\ List.length x' = List.length x /\
    (forall t b i j v, nth_error sl t = Some (b, i, j) -> nth_error vl j = Some v -> nth_error x' (line + t) = getv m b v i) /\
    (forall k, k < line \/ line + List.length sl <= k -> nth_error x' k = nth_error x k).
Proof.
  induction sl as [|[[b i] j] sl IH]; intros x line H L; cbn [forl List.length] in *.
  - exists x. rewrite Nat.add_0_r. repeat split; auto. intros [|t]; discriminate.
  - apply ok3_cons in H. destruct H as [(v & a & Hv & Ha) H].
    unfold putl at 1, put1. cbn [fst snd]. unfold vix. rewrite Hv. cbn [rbind]. rewrite (rdp_getv _ _ _ _ _ Ha). cbn [rbind].
    unfold wra. replace (line <? List.length x) with true by (symmetry; apply Nat.ltb_lt; lia). cbn [rbind].
    destruct (IH (upd x line a) (line + 1) H) as (x' & E & LL & V & U). { rewrite upd_length. lia. }
    exists x'. rewrite E. replace (line + 1 + List.length sl) with (line + S (List.length sl)) in * by lia. rewrite upd_length in LL.
    split; [reflexivity|]. split; [exact LL|]. split.
    + intros [|t] b' i' j' v' Ht Hv'; cbn in Ht.
      * injection Ht as <- <- <-. rewrite Hv in Hv'. injection Hv' as <-. rewrite Nat.add_0_r, U by lia. rewrite nth_error_upd_eq by lia. now rewrite Ha.
      * replace (line + S t) with (line + 1 + t) by lia. now apply (V t b' i' j').
    + intros k Hk. rewrite U by lia. apply nth_error_upd_ne. lia.
Qed.

Definition same_shape (m m' : fmem) : Prop := forall b v, match m b v, m' b v with Some l, Some l' => List.length l = List.length l' | None, None => True | _, _ => False end.
Lemma shape_refl m : same_shape m m.
Proof. intros b v. now destruct (m b v). Qed.
Lemma shape_trans m m1 m2 : same_shape m m1 -> same_shape m1 m2 -> same_shape m m2.
Proof. intros A B b v. specialize (A b v). specialize (B b v). destruct (m b v), (m1 b v), (m2 b v); auto; try contradiction. congruence. Qed.
Definition hits (vl : list nat) (t : nat * nat * nat) (b v i : nat) : Prop := fst (fst t) = b /\ snd (fst t) = i /\ nth_error vl (snd t) = Some v.

Lemma wrp_ok m b v i a l : m b v = Some l -> i < List.length l -> exists m', wrp F m b v i a = Ok m' /\ same_shape m m' /\
  getv m' b v i = Some a /\ (forall b' v' i', (b', v', i') <> (b, v, i) -> getv m' b' v' i' = getv m b' v' i').
Proof.
  intros E L. unfold wrp. rewrite E. replace (i <? List.length l) with true by (symmetry; now apply Nat.ltb_lt).
  eexists. split; [reflexivity|]. split; [|split].
  - intros b' v'. destruct (Nat.eqb_spec b' b) as [->|]; [destruct (Nat.eqb_spec v' v) as [->|]|]; cbn [andb].
    + rewrite E. now rewrite upd_length.
    + now destruct (m b v').
    + now destruct (m b' v').
  - unfold Flatten_spec.getv. rewrite !Nat.eqb_refl. cbn [andb]. now apply nth_error_upd_eq.
  - intros b' v' i' NE. unfold Flatten_spec.getv. destruct (Nat.eqb_spec b' b) as [->|]; [destruct (Nat.eqb_spec v' v) as [->|]|]; cbn [andb]; auto.
    rewrite E. apply nth_error_upd_ne. congruence.
Qed.

Lemma unpack_ok x vl sl : forall m line, ok3 sl (fun b i j => exists v l, nth_error vl j = Some v /\ m b v = Some l /\ i < List.length l) ->
  line + List.length sl <= List.length x ->
  exists m', forl sl (getl x vl) (m, line) = Ok (m', line + List.length sl) /\ same_shape m m' /\
    (forall b v i, (forall t, In t sl -> ~ hits vl t b v i) -> getv m' b v i = getv m b v i) /\
    (forall k t b v i, nth_error sl k = Some t -> hits vl t b v i -> (forall k' t', k < k' -> nth_error sl k' = Some t' -> ~ hits vl t' b v i) ->
       getv m' b v i = nth_error x (line + k)).
Proof.
  induction sl as [|[[b i] j] sl IH]; intros m line H L; cbn [forl List.length] in *.
  - exists m. rewrite Nat.add_0_r. split; [reflexivity|]. split; [apply shape_refl|]. split; [reflexivity|]. intros [|k]; discriminate.
  - apply ok3_cons in H. destruct H as [(v & l & Hv & Hm & Hl) H].
    unfold getl at 1, get1. cbn [fst snd]. unfold vix. rewrite Hv. cbn [rbind]. unfold rda.
    destruct (nth_error x line) as [a|] eqn:Ea; [|apply nth_error_None in Ea; lia]. cbn [rbind].
    destruct (wrp_ok m b v i a l Hm Hl) as (m1 & E1 & S1 & V1 & U1). rewrite E1. cbn [rbind].
    destruct (IH m1 (line + 1)) as (m' & E & SS & U & V); [|lia|].
    { intros b' i' j' I. destruct (H b' i' j' I) as (v' & l' & Hv' & Hm' & Hl'). specialize (S1 b' v'). rewrite Hm' in S1.
      destruct (m1 b' v') as [l1|] eqn:Q; [|contradiction]. exists v', l1. repeat split; auto. lia. }
    exists m'. split; [etransitivity; [exact E|]; f_equal; f_equal; lia|]. split; [eapply shape_trans; eauto|]. split.
    + intros b' v' i' NH. rewrite U by (intros t I; apply NH; now right). apply U1. intros Q. injection Q as -> -> ->.
      apply (NH (b, i, j)); [now left|]. repeat split; auto.
    + intros [|k] t b' v' i' Hk Ht Last; cbn in Hk.
      * injection Hk as <-. destruct Ht as (A & B & C). cbn [fst snd] in *. rewrite Hv in C. injection C as <-. subst b' i'.
        rewrite U. { rewrite Nat.add_0_r. congruence. }
        intros t I. apply In_nth_error in I. destruct I as (k & Hk). apply (Last (S k) t); auto. lia.
      * replace (line + S k) with (line + 1 + k) by lia. apply (V k t); auto. intros k' t' Lk Hk'. apply (Last (S k') t'); auto. lia.
Qed.

Lemma unpack_same x vl sl : forall m line, ok3 sl (fun b i j => exists v l, nth_error vl j = Some v /\ m b v = Some l /\ i < List.length l) ->
  line + List.length sl <= List.length x ->
  (forall t b i j v, nth_error sl t = Some (b, i, j) -> nth_error vl j = Some v -> nth_error x (line + t) = getv m b v i) ->
  exists m', forl sl (getl x vl) (m, line) = Ok (m', line + List.length sl) /\ forall b v, m' b v = m b v.
Proof.
  induction sl as [|[[b i] j] sl IH]; intros m line H L Q; cbn [forl List.length] in *.
  - exists m. rewrite Nat.add_0_r. auto.
  - apply ok3_cons in H. destruct H as [(v & l & Hv & Hm & Hl) H].
    unfold getl at 1, get1. cbn [fst snd]. unfold vix. rewrite Hv. cbn [rbind]. unfold rda.
    pose proof (Q 0 b i j v eq_refl Hv) as E0. rewrite Nat.add_0_r in E0. unfold Flatten_spec.getv in E0. rewrite Hm in E0. rewrite E0.
    destruct (nth_error l i) as [a|] eqn:Ea; [|apply nth_error_None in Ea; lia]. cbn [rbind].
    unfold wrp. rewrite Hm. replace (i <? List.length l) with true by (symmetry; now apply Nat.ltb_lt). cbn [rbind].
    set (m1 := fun b' v' => _). assert (M1 : forall b v, m1 b v = m b v).
    { intros b' v'. unfold m1. destruct (Nat.eqb_spec b' b) as [->|]; [destruct (Nat.eqb_spec v' v) as [->|]|]; cbn [andb]; auto.
      rewrite Hm. f_equal. now apply upd_same. }
    destruct (IH m1 (line + 1)) as (m' & E & V); [|lia| |].
    { intros b' i' j' I. destruct (H b' i' j' I) as (v' & l' & Hv' & Hm' & Hl'). exists v', l'. rewrite M1. auto. }
    { intros t b' i' j' v' Ht Hv'. replace (line + 1 + t) with (line + S t) by lia. rewrite (Q (S t) b' i' j' v'); auto.
      unfold Flatten_spec.getv. now rewrite M1. }
    exists m'. split. { etransitivity; [exact E|]. f_equal. f_equal. lia. } intros b' v'. now rewrite V, M1.
Qed.

(** a traversal of the slots in the order of a layout *)
Record traversal (g : fgrid) (n : nat) (sl : list (nat * nat * nat)) (pos : nat -> nat -> nat -> nat) : Prop := {
  tr_len : List.length sl = n * total g;
  tr_in : forall b i j, In (b, i, j) sl <-> slot g n b i j;
  tr_pos : forall b i j, slot g n b i j -> nth_error sl (pos b i j) = Some (b, i, j);
  tr_nodup : NoDup sl
}.
Lemma tr_bij g n sl pos : traversal g n sl pos -> bijective_layout g n pos.
Proof.
  intros T. split; [|split].
  - intros b i j Q. rewrite <- (tr_len _ _ _ _ T). apply nth_error_Some. now rewrite (tr_pos _ _ _ _ T).
  - intros b i j b' i' j' Q Q' E. apply (tr_pos _ _ _ _ T) in Q, Q'. rewrite E in Q. rewrite Q in Q'. injection Q' as -> -> ->. auto.
  - intros k Hk. rewrite <- (tr_len _ _ _ _ T) in Hk. destruct (nth_error sl k) as [[[b i] j]|] eqn:E; [|apply nth_error_None in E; lia].
    assert (Q : slot g n b i j) by (apply (tr_in _ _ _ _ T); eapply nth_error_In; eauto).
    exists b, i, j. split; auto. apply (proj1 (NoDup_nth_error sl) (tr_nodup _ _ _ _ T)).
    + apply nth_error_Some. now rewrite (tr_pos _ _ _ _ T).
    + now rewrite (tr_pos _ _ _ _ T).
Qed.
Lemma stored_read g vl m b i j : stored F g vl m -> slot g (List.length vl) b i j ->
  exists v l, nth_error vl j = Some v /\ m b v = Some l /\ i < List.length l.
Proof.
  intros St ((nn & Hg & Hi) & Hj). destruct (nth_error vl j) as [v|] eqn:E; [|apply nth_error_None in E; lia].
  destruct (St b nn v Hg) as (l & Hl & L); [eapply nth_error_In; eauto|]. exists v, l. subst nn. auto.
Qed.
Lemma into_ok g vl sl pos : traversal g (List.length vl) sl pos ->
  copies_into (F := F) g vl pos (fun m x => do s <- forl sl (putl m vl) (x, 0); Ok (fst s)).
Proof.
  intros T m x St L. destruct (pack_ok m vl sl x 0) as (x' & E & LL & V & U).
  - intros b i j I. apply (tr_in _ _ _ _ T) in I. destruct (stored_read _ _ _ _ _ _ St I) as (v & l & Hv & Hm & Hl).
    destruct (nth_error l i) as [a|] eqn:Ea; [|apply nth_error_None in Ea; lia]. exists v, a. split; auto. unfold Flatten_spec.getv. now rewrite Hm.
  - rewrite (tr_len _ _ _ _ T). lia.
  - exists x'. rewrite E. split; [reflexivity|]. split; [exact LL|]. split.
    + intros b i j v Q Hv. apply (V (pos b i j) b i j); auto. now apply (tr_pos _ _ _ _ T).
    + intros k Hk. apply U. rewrite (tr_len _ _ _ _ T). lia.
Qed.
Lemma NoDup_nth_inj (vl : list nat) j j' v : NoDup vl -> nth_error vl j = Some v -> nth_error vl j' = Some v -> j = j'.
Proof. intros N A B. apply (proj1 (NoDup_nth_error vl) N); [apply nth_error_Some|]; congruence. Qed.
Lemma back_ok g vl sl pos : traversal g (List.length vl) sl pos ->
  copies_back (F := F) g vl pos (fun x m => do s <- forl sl (getl x vl) (m, 0); Ok (fst s)).
Proof.
  intros T m x St N L. destruct (unpack_ok x vl sl m 0) as (m' & E & SS & U & V).
  - intros b i j I. apply (tr_in _ _ _ _ T) in I. eapply stored_read; eauto.
  - rewrite (tr_len _ _ _ _ T). lia.
  - exists m'. split; [exact (f_equal (fun r => do s <- r; Ok (fst s)) E)|]. split; [|split].
    + intros b n v Hb Hv. destruct (St b n v Hb Hv) as (l & Hl & Ll). specialize (SS b v). rewrite Hl in SS.
      destruct (m' b v) as [l'|]; [|contradiction]. exists l'. split; auto. lia.
    + intros b i j v Q Hv. rewrite (V (pos b i j) (b, i, j) b v i); auto.
      * now apply (tr_pos _ _ _ _ T).
      * repeat split; auto.
      * intros k [[b' i'] j'] Lk Hk (A & B & C). cbn [fst snd] in *. subst b' i'.
        assert (j = j') by (eapply NoDup_nth_inj; eauto). subst j'.
        assert (pos b i j = k); [|lia]. apply (proj1 (NoDup_nth_error sl) (tr_nodup _ _ _ _ T)).
        -- apply nth_error_Some. now rewrite (tr_pos _ _ _ _ T).
        -- now rewrite (tr_pos _ _ _ _ T).
    + intros b v i NH. apply U. intros [[b' i'] j'] I (A & B & C). cbn [fst snd] in *. subst b' i'. apply NH. exists j'. split; auto. now apply (tr_in _ _ _ _ T).
Qed.
Lemma trip_ok g vl sl pos : traversal g (List.length vl) sl pos ->
  round_trip (F := F) g vl (fun m x => do s <- forl sl (putl m vl) (x, 0); Ok (fst s)) (fun x m => do s <- forl sl (getl x vl) (m, 0); Ok (fst s)).
Proof.
  intros T m x St L. destruct (into_ok g vl sl pos T m x St L) as (x' & E & LL & V & U).
  exists x'. destruct (unpack_same x' vl sl m 0) as (m' & E' & Q).
  - intros b i j I. apply (tr_in _ _ _ _ T) in I. eapply stored_read; eauto.
  - rewrite (tr_len _ _ _ _ T). lia.
  - intros t b i j v Ht Hv. rewrite Nat.add_0_l. assert (Sl : slot g (List.length vl) b i j) by (apply (tr_in _ _ _ _ T); eapply nth_error_In; eauto).
    rewrite <- (V b i j v) by auto. f_equal. apply (proj1 (NoDup_nth_error sl) (tr_nodup _ _ _ _ T)).
    + apply nth_error_Some. congruence.
    + now rewrite (tr_pos _ _ _ _ T).
  - exists m'. split; [exact E|]. split; [exact (f_equal (fun r => do s <- r; Ok (fst s)) E')|exact Q].
Qed.
Lemma list_ext {A} (a b : list A) : List.length a = List.length b -> (forall k, k < List.length a -> nth_error a k = nth_error b k) -> a = b.
Proof.
  revert b. induction a as [|x a IH]; intros [|y b] L H; try discriminate; auto. cbn in L. f_equal.
  - specialize (H 0). cbn in H. assert (Some x = Some y) by (apply H; lia). congruence.
  - apply IH; [lia|]. intros k Hk. apply (H (S k)). cbn. lia.
Qed.
Lemma array_trip_ok g vl sl pos : traversal g (List.length vl) sl pos ->
  array_round_trip (F := F) g vl (fun m x => do s <- forl sl (putl m vl) (x, 0); Ok (fst s)) (fun x m => do s <- forl sl (getl x vl) (m, 0); Ok (fst s)).
Proof.
  intros T m x y St N L Ly. destruct (back_ok g vl sl pos T m x St N) as (m' & E & St' & V & _); [lia|].
  exists m'. split; [exact E|]. destruct (into_ok g vl sl pos T m' y St') as (x' & E' & LL & V' & U'); [lia|].
  rewrite E'. f_equal. apply list_ext; [congruence|]. intros k Hk.
  destruct (tr_bij _ _ _ _ T) as (_ & _ & Onto). destruct (Onto k) as (b & i & j & Q & <-); [lia|].
  destruct (nth_error vl j) as [v|] eqn:Hv; [|apply nth_error_None in Hv; destruct Q as (_ & Q); lia].
  rewrite (V' b i j v Q Hv). now rewrite (V b i j v).
Qed.
End P.
