(** Proofs for arithmetic on variable lists (C10). *)
From Verif Require Import Base Algebra_model Algebra_spec.
Section P.
Variable F : Type.
Notation column := (column F).
Notation amem := (amem F).
Fixpoint colfold (t : nat -> column -> res column) (ns : list nat) (c : column) : res column :=
  match ns with [] => Ok c | n :: r => do c1 <- t n c; colfold t r c1 end.
Lemma iloop_ok t b : forall is_ (m : amem) (gi : nat -> column), NoDup is_ -> (forall i, In i is_ -> t (m b i) = Ok (gi i)) ->
  exists m', iloop F t b is_ m = Ok m' /\ (forall i, In i is_ -> m' b i = gi i) /\ (forall b' i, ~ (b' = b /\ In i is_) -> m' b' i = m b' i).
Proof.
  induction is_ as [|i is_ IH]; intros m gi N H; cbn [iloop].
  - exists m. repeat split; auto. intros i [].
  - rewrite H by (now left). cbn [rbind]. inversion N; subst.
    destruct (IH (fun b' i' => if (b' =? b) && (i' =? i) then gi i else m b' i') gi H3) as (m' & E & A & B).
    { intros j Hj. rewrite Nat.eqb_refl. destruct (Nat.eqb_spec j i) as [->|]; [contradiction|]. apply H. now right. }
    exists m'. split; auto. split.
    + intros j [<-|Hj]; [|auto]. rewrite B by tauto. now rewrite !Nat.eqb_refl.
    + intros b' j Hn. rewrite B by (intros [-> ?]; apply Hn; split; auto; now right).
      destruct (Nat.eqb_spec b' b) as [->|]; auto. destruct (Nat.eqb_spec j i) as [->|]; auto. exfalso. apply Hn. split; auto. now left.
Qed.
Lemma nloop_ok t b nn : forall ns (m : amem) (gi : nat -> column), (forall i, i < nn -> colfold t ns (m b i) = Ok (gi i)) ->
  exists m', nloop F t b nn ns m = Ok m' /\ (forall i, i < nn -> m' b i = gi i) /\ (forall b' i, ~ (b' = b /\ i < nn) -> m' b' i = m b' i).
Proof.
  induction ns as [|n ns IH]; intros m gi H; cbn [nloop].
  - exists m. repeat split; auto. intros i Hi. specialize (H i Hi). cbn [colfold] in H. congruence.
  - destruct (iloop_ok (t n) b (seq 0 nn) m (fun i => match t n (m b i) with Ok c => c | _ => m b i end) (seq_NoDup _ _)) as (m1 & E & A & B).
    { intros i Hi. apply in_seq in Hi. specialize (H i ltac:(lia)). cbn [colfold] in H. destruct (t n (m b i)); try discriminate. reflexivity. }
    rewrite E. cbn [rbind]. destruct (IH m1 gi) as (m' & E' & A' & B').
    { intros i Hi. specialize (H i Hi). rewrite A by (apply in_seq; lia). cbn [colfold] in H. destruct (t n (m b i)); try discriminate. exact H. }
    exists m'. split; auto. split; auto. intros b' i Hn. rewrite B' by auto. apply B. rewrite in_seq. intros [-> Q]. apply Hn. split; auto; lia.
Qed.
Lemma bloop_ok t N : forall g b0 (m : amem) (gi : nat -> nat -> column),
  (forall b nn i, nth_error g b = Some (true, nn) -> i < nn -> colfold t (seq 0 N) (m (b0 + b) i) = Ok (gi (b0 + b) i)) ->
  exists m', bloop F t N g b0 m = Ok m' /\
    (forall b nn i, nth_error g b = Some (true, nn) -> i < nn -> m' (b0 + b) i = gi (b0 + b) i) /\
    (forall b' i, ~ (exists b nn, b' = b0 + b /\ nth_error g b = Some (true, nn) /\ i < nn) -> m' b' i = m b' i).
Proof.
  induction g as [|[act nn] g IH]; intros b0 m gi H; cbn [bloop].
  - exists m. repeat split; auto. intros b nn i E. destruct b; discriminate.
  - assert (S1 : exists m1, (if act then nloop F t b0 nn (seq 0 N) m else Ok m) = Ok m1 /\
       (act = true -> forall i, i < nn -> m1 b0 i = gi b0 i) /\ (forall b' i, ~ (act = true /\ b' = b0 /\ i < nn) -> m1 b' i = m b' i)).
    { destruct act.
      - destruct (nloop_ok t b0 nn (seq 0 N) m (gi b0)) as (m1 & E & A & B).
        { intros i Hi. specialize (H 0 nn i eq_refl Hi). now rewrite Nat.add_0_r in H. }
        exists m1. repeat split; auto.
      - exists m. repeat split; auto. discriminate. }
    destruct S1 as (m1 & -> & A & B). cbn [rbind].
    destruct (IH (S b0) m1 gi) as (m' & E & A' & B').
    { intros b n i Eb Hi. rewrite B by lia. replace (S b0 + b) with (b0 + S b) by lia. apply (H (S b) n); auto. }
    exists m'. split; auto. split.
    + intros [|b] n i Eb Hi; cbn [nth_error] in Eb.
      * injection Eb as -> ->. rewrite Nat.add_0_r. rewrite B'; [auto|]. intros (b & n' & Q & _). lia.
      * replace (b0 + S b) with (S b0 + b) by lia. eapply A'; eauto.
    + intros b' i Hn. rewrite B'. { apply B. intros (-> & -> & Hi). apply Hn. exists 0, nn. rewrite Nat.add_0_r. auto. }
      intros (b & n & -> & Eb & Hi). apply Hn. exists (S b), n. repeat split; auto. lia.
Qed.
(** one column, writes to r[0], r[1], ... *)
Lemma colfold_writes t (r : list nat) (f : nat -> F) (c0 : column) : NoDup r ->
  (forall n v c, nth_error r n = Some v -> (forall u, ~ In u (firstn n r) -> c u = c0 u) ->
     t n c = Ok (cset F c v (f n))) ->
  forall k, k <= List.length r ->
  exists c, colfold t (seq 0 k) c0 = Ok c /\ (forall n v, n < k -> nth_error r n = Some v -> c v = Some (f n)) /\
    (forall u, ~ In u (firstn k r) -> c u = c0 u).
Proof.
  intros N H. induction k as [|k IH]; intros Hk.
  - exists c0. simpl. repeat split; auto. lia.
  - destruct IH as (c & E & A & B); [lia|]. rewrite seq_S.
    assert (CA : forall l1 l2 c, colfold t (l1 ++ l2) c = do c1 <- colfold t l1 c; colfold t l2 c1).
    { induction l1 as [|x l1 IHl]; intros; cbn [app colfold rbind]; auto. destruct (t x c1); cbn [rbind]; auto. }
    rewrite CA, E. cbn [rbind]. cbn [colfold Nat.add].
    destruct (nth_error r k) as [v|] eqn:Ev. 2:{ apply nth_error_None in Ev. lia. }
    rewrite (H k v c Ev B). cbn [rbind]. eexists. split; [reflexivity|].
    assert (F1 : firstn (S k) r = firstn k r ++ [v]).
    { clear - Ev. revert k Ev. induction r as [|y r IH]; intros [|k] E; simpl in *; try discriminate. { injection E as ->. reflexivity. } f_equal. auto. }
    split.
    + intros n u Hn Eu. unfold cset. destruct (Nat.eqb_spec u v) as [->|].
      * assert (n = k) as ->; auto. apply (proj1 (NoDup_nth_error r) N); [apply nth_error_Some; congruence|congruence].
      * apply A; auto. assert (n <> k) by (intros ->; congruence). lia.
    + intros u Hu. rewrite F1, in_app_iff in Hu. unfold cset. destruct (Nat.eqb_spec u v) as [->|]. { exfalso. apply Hu. right. now left. }
      apply B. tauto.
Qed.
Lemma loop_sets t g (r : list nat) (m : amem) (f : nat -> nat -> nat -> F) : NoDup r ->
  (forall b i, active_pt g b i -> forall n v c, nth_error r n = Some v -> (forall u, ~ In u (firstn n r) -> c u = m b i u) ->
     t n c = Ok (cset F c v (f b i n))) ->
  exists m', bloop F t (List.length r) g 0 m = Ok m' /\ sets F g r m m' f.
Proof.
  intros N H.
  assert (X : forall b i, active_pt g b i -> exists c, colfold t (seq 0 (List.length r)) (m b i) = Ok c /\ (forall n v, nth_error r n = Some v -> c v = Some (f b i n)) /\ (forall u, ~ In u r -> c u = m b i u)).
  { intros b i Hp. destruct (colfold_writes t r (f b i) (m b i) N (H b i Hp) (List.length r) (le_n _)) as (c & E & A & B).
    exists c. split; auto. rewrite firstn_all in B. split; auto. intros n v Ev. apply A; auto. apply nth_error_Some. congruence. }
  destruct (bloop_ok t (List.length r) g 0 m (fun b i => match colfold t (seq 0 (List.length r)) (m b i) with Ok c => c | _ => m b i end)) as (m' & E & A & B).
  { intros b nn i Eb Hi. simpl. destruct (X b i) as (c & -> & _); auto. exists nn. auto. }
  exists m'. split; auto. split.
  - intros b i Hp n v Ev. destruct (X b i Hp) as (c & Ec & C1 & _). destruct Hp as (nn & Eb & Hi).
    pose proof (A b nn i Eb Hi) as Q. simpl in Q. rewrite Q, Ec. auto.
  - intros b i v Hn. assert (D : active_pt g b i \/ ~ active_pt g b i).
    { unfold active_pt. destruct (nth_error g b) as [[[|] nn]|] eqn:Eb.
      - destruct (Nat.lt_ge_cases i nn); [left; eauto|right]. intros (n' & Q & Q'). injection Q as <-. lia.
      - right. intros (n' & Q & _). discriminate.
      - right. intros (n' & Q & _). discriminate. }
    destruct D as [Hp|Hp].
    + destruct (X b i Hp) as (c & Ec & _ & C2). destruct Hp as (nn & Eb & Hi). pose proof (A b nn i Eb Hi) as Q. simpl in Q. rewrite Q, Ec. apply C2. intros Hv. apply Hn. split; auto. exists nn; auto.
    + rewrite B; auto. intros (b' & nn & -> & Eb & Hi). apply Hp. exists nn. auto.
Qed.
(** reading an input in the column reached at step n *)
Lemma read_in g w r p o b i n v (c : column) d : input F g w r p o -> active_pt g b i -> nth_error r n = Some v ->
  (forall u, ~ In u (firstn n r) -> c u = am F w b i u) ->
  exists u, ix (idx F o) n = Ok u /\ rd F c u = Ok (val_of F d (am F w) (idx F o) b i n).
Proof.
  intros (_ & L & S & A) Hp Ev C. unfold ix, val_of. destruct (nth_error (idx F o) n) as [u|] eqn:Eu.
  2:{ apply nth_error_None in Eu. assert (n < List.length r) by (apply nth_error_Some; congruence). lia. }
  exists u. split; auto. unfold rd. rewrite C.
  - specialize (S b i Hp u (nth_error_In _ _ Eu)). destruct (am F w b i u); congruence.
  - intros Hin. apply In_nth_error in Hin. destruct Hin as (k & Ek).
    assert (Hk : k < n). { assert (k < List.length (firstn n r)) by (apply nth_error_Some; congruence). rewrite firstn_length in H. lia. }
    assert (nth_error r k = Some u).
    { clear - Ek Hk. revert k n Ek Hk. induction r as [|y r IH]; intros k n Ek Hk. { rewrite firstn_nil in Ek. destruct k; discriminate. }
      destruct n as [|n]; [lia|]. destruct k as [|k]; simpl in *; auto. apply (IH k n); auto. lia. }
    specialize (A k n u H Eu). lia.
Qed.
Lemma write_out g w p o b i n v (c : column) x : output F g w p o -> active_pt g b i -> nth_error (idx F o) n = Some v ->
  (forall u, ~ In u (firstn n (idx F o)) -> c u = am F w b i u) -> wr F c v x = Ok (cset F c v x).
Proof.
  intros (_ & N & S) Hp Ev C. unfold wr. rewrite C.
  - specialize (S b i Hp v (nth_error_In _ _ Ev)). destruct (am F w b i v); congruence.
  - intros Hin. apply In_nth_error in Hin. destruct Hin as (k & Ek).
    assert (Hk : k < n). { assert (k < List.length (firstn n (idx F o))) by (apply nth_error_Some; congruence). rewrite firstn_length in H. lia. }
    assert (nth_error (idx F o) k = Some v).
    { clear - Ek Hk. revert k n Ek Hk. generalize (idx F o) as r. induction r as [|y r IH]; intros k n Ek Hk. { rewrite firstn_nil in Ek. destruct k; discriminate. }
      destruct n as [|n]; [lia|]. destruct k as [|k]; simpl in *; auto. apply (IH k n); auto. lia. }
    assert (k = n); [|lia]. apply (proj1 (NoDup_nth_error _) N); [apply nth_error_Some; congruence|congruence].
Qed.
Lemma settime_ok w p o t : obj F w p = Ok o -> times F w (settime F w p t) p t.
Proof.
  unfold obj, settime, times. destruct p as [k|]; [|discriminate]. destruct (nth_error (vls F w) k) as [o'|] eqn:E; [|discriminate].
  intros _. exists k, o'. cbn [vls]. rewrite upd_length. repeat split; auto.
  - apply nth_error_upd_eq. apply nth_error_Some. congruence.
  - intros j Hj. apply nth_error_upd_ne. auto.
Qed.
Lemma times_setmem w w' p t m : times F (setmem F w m) w' p t -> times F w w' p t.
Proof. auto. Qed.
Lemma loop_cols t N g (m : amem) (P : nat -> nat -> column -> Prop) :
  (forall b i, active_pt g b i -> exists c, colfold t (seq 0 N) (m b i) = Ok c /\ P b i c) ->
  exists m', bloop F t N g 0 m = Ok m' /\ (forall b i, active_pt g b i -> P b i (m' b i)) /\ (forall b i, ~ active_pt g b i -> m' b i = m b i).
Proof.
  intros X. destruct (bloop_ok t N g 0 m (fun b i => match colfold t (seq 0 N) (m b i) with Ok c => c | _ => m b i end)) as (m' & E & A & B).
  { intros b nn i Eb Hi. simpl. destruct (X b i) as (c & -> & _); auto. exists nn. auto. }
  exists m'. split; auto. split.
  - intros b i Hp. destruct (X b i Hp) as (c & Ec & Pc). destruct Hp as (nn & Eb & Hi). pose proof (A b nn i Eb Hi) as Q. simpl in Q. rewrite Q, Ec. exact Pc.
  - intros b i Hp. rewrite B; auto. intros (b' & nn & -> & Eb & Hi). apply Hp. exists nn. auto.
Qed.
Lemma colfold_app t l1 : forall l2 c, colfold t (l1 ++ l2) c = do c1 <- colfold t l1 c; colfold t l2 c1.
Proof. induction l1 as [|x l1 IHl]; intros; cbn [app colfold rbind]; auto. destruct (t x c); cbn [rbind]; auto. Qed.
Lemma swap_col (v u : list nat) (c0 : column) : NoDup v -> NoDup u -> List.length v <= List.length u ->
  (forall n k x, nth_error v n = Some x -> nth_error u k = Some x -> n = k) ->
  (forall x, In x v \/ In x u -> c0 x <> None) -> forall k, k <= List.length v ->
  exists c, colfold (fun n k => do iu <- ix u n; do iv <- ix v n; do tmp <- rd F k iv; do x <- rd F k iu; do k1 <- wr F k iv x; wr F k1 iu tmp) (seq 0 k) c0 = Ok c /\
   (forall n a b, n < k -> nth_error v n = Some a -> nth_error u n = Some b -> c a = c0 b /\ c b = c0 a) /\
   (forall x, (forall n, n < k -> nth_error v n <> Some x /\ nth_error u n <> Some x) -> c x = c0 x).
Proof.
  intros Nv Nu L X S. induction k as [|k IH]; intros Hk.
  - exists c0. simpl. repeat split; auto; lia.
  - destruct IH as (c & E & A & B); [lia|]. rewrite seq_S, colfold_app, E. cbn [rbind colfold Nat.add].
    destruct (nth_error v k) as [a|] eqn:Ea. 2:{ apply nth_error_None in Ea. lia. }
    destruct (nth_error u k) as [b|] eqn:Eb. 2:{ apply nth_error_None in Eb. lia. }
    unfold ix. rewrite Ea, Eb. cbn [rbind].
    assert (Nn : forall (l : list nat) i j x, NoDup l -> nth_error l i = Some x -> nth_error l j = Some x -> i = j).
    { intros l i j x N E1 E2. apply (proj1 (NoDup_nth_error l) N); [apply nth_error_Some; congruence|congruence]. }
    assert (Ca : c a = c0 a).
    { apply B. intros n Hn. split; intros Q; [pose proof (Nn v _ _ _ Nv Q Ea)|pose proof (X _ _ _ Ea Q)]; lia. }
    assert (Cb : c b = c0 b).
    { apply B. intros n Hn. split; intros Q; [pose proof (X _ _ _ Q Eb)|pose proof (Nn u _ _ _ Nu Q Eb)]; lia. }
    pose proof (S a (or_introl (nth_error_In _ _ Ea))) as Sa. pose proof (S b (or_intror (nth_error_In _ _ Eb))) as Sb.
    unfold rd. rewrite Ca, Cb. destruct (c0 a) as [xa|] eqn:Xa; [|congruence]. destruct (c0 b) as [xb|] eqn:Xb; [|congruence]. cbn [rbind].
    unfold wr at 1. rewrite Ca. cbn [rbind]. unfold wr. replace (cset F c a xb b) with (Some xb).
    2:{ unfold cset. destruct (Nat.eqb_spec b a); congruence. }
    cbn [rbind]. eexists. split; [reflexivity|]. unfold cset. split.
    + intros n a' b' Hn Ea' Eb'. destruct (Nat.eq_dec n k) as [->|NE].
      * assert (a' = a) as -> by congruence. assert (b' = b) as -> by congruence. rewrite !Nat.eqb_refl.
        destruct (Nat.eqb_spec a b) as [->|]; split; congruence.
      * destruct (A n a' b' ltac:(lia) Ea' Eb') as [A1 A2].
        assert (Na : forall y, y = a' \/ y = b' -> y <> a /\ y <> b).
        { intros y [-> | ->]; split; intros ->.
          - apply NE. eapply (Nn v); eauto.
          - apply NE. eapply X; eauto.
          - apply NE. symmetry. eapply X; eauto.
          - apply NE. eapply (Nn u); eauto. }
        destruct (Na a' (or_introl eq_refl)) as [N1 N2]. destruct (Na b' (or_intror eq_refl)) as [N3 N4].
        destruct (Nat.eqb_spec a' b); [contradiction|]. destruct (Nat.eqb_spec a' a); [contradiction|].
        destruct (Nat.eqb_spec b' b); [contradiction|]. destruct (Nat.eqb_spec b' a); [contradiction|]. auto.
    + intros x Hx. destruct (Hx k ltac:(lia)) as [H1 H2]. destruct (Nat.eqb_spec x b); [congruence|]. destruct (Nat.eqb_spec x a); [congruence|]. apply B. intros j Hj. apply Hx. lia.
Qed.
End P.
