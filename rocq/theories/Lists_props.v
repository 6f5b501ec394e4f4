(** C13 (list templates) and C51 (box lists). *)
From Verif Require Import Base Lists_model Lists_spec Lists_api_spec Lists_proofs.
From Coq Require Import Sorting.Sorted.

(** ** C13 *)
(** Every history of calls, in which pushlist and droplist get two different lists, is free of
    undefined behaviour, and afterwards every question about every list is answered as for the
    sequences obtained by the documented operations. *)
Theorem C13_lists (T : Type) (eqb : T -> T -> bool) (dec : forall a b : T, {a = b} + {a <> b})
  (eqb_ok : forall a b, eqb a b = true <-> a = b) (os : list (lop T)) (g : lists T) :
  Forall (no_self T) os -> srun T dec [] os = Some g ->
  exists h, lrun T eqb [] os = Ok h /\ forall q, good_answer T g q (lquery T eqb h q).
Proof.
  intros NS H. destruct (run_ok T eqb dec eqb_ok os [] [] g) as (h & E & HR); auto. { constructor. }
  exists h. split; auto. intros q. now apply (query_ok T eqb dec).
Qed.
(** unionpush and unionpushlist never create duplicates. *)
Theorem C13_union_nodup (T : Type) (dec : forall a b : T, {a = b} + {a <> b}) (h g : lists T) o v x u :
  o = UnionPush T v x \/ o = UnionPushList T v u ->
  Forall (@NoDup T) h -> sstep T dec h o = Some g -> Forall (@NoDup T) g.
Proof.
  intros O F H. 
  assert (U : forall l, NoDup l -> Forall (@NoDup T) (upd h v l)).
  { intros l Nl. clear H O. revert v. induction F; intros [|v]; simpl; constructor; auto. }
  destruct O as [-> | ->]; simpl in H.
  - destruct (nth_error h v) as [l|] eqn:E; try discriminate. injection H as <-. apply U.
    apply (fold_add_nodup T dec [x]). rewrite Forall_forall in F. apply F. eapply nth_error_In; eauto.
  - destruct (nth_error h u) as [m|]; try discriminate. destruct (nth_error h v) as [l|] eqn:E; try discriminate.
    injection H as <-. apply U. apply fold_add_nodup. rewrite Forall_forall in F. apply F. eapply nth_error_In; eauto.
Qed.
(** The hypotheses are met by a history with all operations. *)
Example C13_lists_ex :
  let os := [New Z; New Z; Push Z 0 5; Push Z 0 7; Push Z 0 5; Push Z 1 7; PushList Z 0 1; UnionPush Z 1 9;
             UnionPushList Z 1 0; Drop Z 0 7; DropIndex Z 0 1; DropList Z 0 1; Dup Z 1; DropLastN Z 1 2]%Z in
  Forall (no_self Z) os /\ srun Z Z.eq_dec [] os = Some [[]; [7]; [7; 9; 5]]%Z.
Proof. split; [repeat constructor; simpl; discriminate|reflexivity]. Qed.
(** pushlist(v,v) does not append a copy: the new half is never written. *)
Theorem C13_pushlist_self_refuted : exists os h, lrun Z Z.eqb [] os = Ok h /\
  srun Z Z.eq_dec [] os = Some [[4; 4]]%Z /\ lquery Z Z.eqb h (QEntry Z 0 1) = UB.
Proof. exists [New Z; Push Z 0 4%Z; PushList Z 0 0]. eexists. repeat split. Qed.
(** droplist(v,v) does not empty the list. *)
Theorem C13_droplist_self_refuted : exists os h, lrun Z Z.eqb [] os = Ok h /\
  srun Z Z.eq_dec [] os = Some [[]] /\ lquery Z Z.eqb h (QLen Z 0) = Ok (AZ Z 1).
Proof. exists [New Z; Push Z 0 1%Z; Push Z 0 2%Z; Push Z 0 3%Z; DropList Z 0 0]. eexists. repeat split. Qed.

(** ** C51: box lists *)
(** [x] is a neighbour of box [b]. *)
Definition neighbour (boxes : list bbox) (b x : Z) : Prop :=
  exists box, nth_error boxes (Z.to_nat b) = Some box /\ (0 <= b)%Z /\ (0 <= x)%Z /\ In x (b_nb box).
(** All neighbour entries are box numbers of the grid or negative (no neighbour). *)
Definition wf_boxes (boxes : list bbox) : Prop :=
  forall box x, In box boxes -> In x (b_nb box) -> (x < Z.of_nat (List.length boxes))%Z.
(** the list object holds the sequence *)
Definition holds (v : tlist Z) (l : list Z) : Prop :=
  n v = List.length l /\ forall i x, nth_error l i = Some x -> nth_error (e v) i = Some (Some x).

Lemma holds_Is v l : holds v l <-> Is Z v l.
Proof.
  split.
  - intros (N & H). exists (skipn (List.length l) (e v)). split; auto.
    rewrite <- (firstn_skipn (List.length l) (e v)) at 1. f_equal.
    revert H. generalize (e v) as b. clear. induction l as [|x l IH]; intros b H; simpl; auto.
    destruct b as [|y b]. { specialize (H 0 x eq_refl). discriminate. }
    pose proof (H 0 x eq_refl) as H0. simpl in H0. injection H0 as ->. simpl. f_equal. apply IH.
    intros i z Hi. apply (H (S i) z). exact Hi.
  - intros (rest & B & N). split; auto. intros i x H. rewrite B, nth_error_app1.
    + rewrite nth_error_map, H. reflexivity.
    + rewrite map_length. apply nth_error_Some. congruence.
Qed.
Notation addn := (add_new Z Z.eq_dec).
Definition pos := filter (fun x => (0 <=? x)%Z).
Lemma bladd_neighbors_ok nbs : forall bl l, Is Z bl l ->
  exists bl', bladd_neighbors nbs bl = Ok bl' /\ Is Z bl' (fold_left addn (pos nbs) l).
Proof.
  induction nbs as [|x nbs IH]; intros bl l I; simpl.
  - eauto.
  - destruct (Z.ltb_spec x 0).
    + replace (0 <=? x)%Z with false by (symmetry; apply Z.leb_gt; lia). auto.
    + replace (0 <=? x)%Z with true by (symmetry; apply Z.leb_le; lia). simpl.
      destruct (unionpush_ok Z Z.eqb Z.eq_dec Z.eqb_eq bl l x I) as (b1 & -> & I1). cbn [rbind]. auto.
Qed.
Lemma fold_add_In m : forall l x, In x (fold_left addn m l) <-> In x l \/ In x m.
Proof.
  induction m as [|y m IH]; simpl; intros l x; [tauto|]. rewrite IH. unfold add_new.
  destruct (in_dec Z.eq_dec y l).
  - intuition (subst; auto).
  - rewrite in_app_iff. simpl. intuition (subst; auto).
Qed.
Lemma rem1_In x y l : NoDup l -> (In y (rem1 Z Z.eq_dec x l) <-> In y l /\ y <> x).
Proof.
  induction l as [|z l IH]; simpl; intros H; [tauto|]. inversion H; subst. destruct (Z.eq_dec z x) as [->|].
  - split; [|intuition congruence]. intros I. split; auto. intros ->. contradiction.
  - simpl. rewrite IH by auto. intuition (subst; auto).
Qed.
Lemma rem1_incl x y l : In y (rem1 Z Z.eq_dec x l) -> In y l.
Proof. induction l as [|z l IH]; simpl; auto. destruct (Z.eq_dec z x); simpl; intuition. Qed.
Lemma rem1_NoDup x l : NoDup l -> NoDup (rem1 Z Z.eq_dec x l).
Proof.
  induction l as [|z l IH]; simpl; intros H; auto. inversion H; subst. destruct (Z.eq_dec z x); auto.
  constructor; auto. intros I. apply H2. eapply rem1_incl; eauto.
Qed.
Lemma fold_rem_NoDup m : forall l, NoDup l -> NoDup (fold_left (fun l x => rem1 Z Z.eq_dec x l) m l).
Proof. induction m; simpl; intros; auto. apply IHm, rem1_NoDup; auto. Qed.
Lemma fold_rem_In m : forall l y, NoDup l ->
  (In y (fold_left (fun l x => rem1 Z Z.eq_dec x l) m l) <-> In y l /\ ~ In y m).
Proof.
  induction m as [|x m IH]; simpl; intros l y H; [tauto|].
  rewrite IH by (now apply rem1_NoDup). rewrite rem1_In by auto. intuition.
Qed.
Lemma pos_In x l : In x (pos l) <-> In x l /\ (0 <= x)%Z.
Proof. unfold pos. rewrite filter_In, Z.leb_le. reflexivity. Qed.
Lemma nn_loop_ok boxes bln l : wf_boxes boxes -> Is Z bln l ->
  (forall x, In x l -> (0 <= x < Z.of_nat (List.length boxes))%Z) ->
  forall todo done, l = done ++ todo -> forall blnn m, Is Z blnn m -> NoDup m ->
  exists r m', nn_loop (List.length todo) (List.length done) boxes bln blnn = Ok r /\ Is Z r m' /\ NoDup m' /\
    forall x, In x m' <-> In x m \/ exists b, In b todo /\ neighbour boxes b x.
Proof.
  intros WF I V. induction todo as [|b todo IH]; intros done E blnn m Im Nm; cbn [List.length nn_loop].
  - exists blnn, m. repeat split; auto. intros [|(b & [] & _)]; auto.
  - rewrite (lget_in Z bln l _ b I). 2:{ rewrite E. now apply nthl_mid. }
    cbn [rbind]. destruct (V b) as [Vb1 Vb2]. { rewrite E. apply in_or_app. right. now left. }
    replace (b <? 0)%Z with false by (symmetry; apply Z.ltb_ge; lia).
    destruct (nth_error boxes (Z.to_nat b)) as [box2|] eqn:Eb. 2:{ apply nth_error_None in Eb. lia. }
    destruct (bladd_neighbors_ok (b_nb box2) (alloc Z) [] (Is_alloc Z)) as (b2 & -> & I2). cbn [rbind].
    destruct (unionpushlist_ok Z Z.eqb Z.eq_dec Z.eqb_eq blnn b2 m _ Im I2) as (b3 & -> & I3). cbn [rbind].
    destruct (IH (done ++ [b])) with (blnn := b3) (m := fold_left addn (fold_left addn (pos (b_nb box2)) []) m)
      as (r & m' & Er & Ir & Nr & Hr); auto.
    { now rewrite <- app_assoc. }
    { now apply fold_add_nodup. }
    rewrite app_length, Nat.add_1_r in Er. exists r, m'. repeat split; auto.
    + intros Hx. apply Hr in Hx. destruct Hx as [Hx|(b' & Hb & Hn)].
      * apply fold_add_In in Hx. destruct Hx as [|Hx]; auto. apply fold_add_In in Hx. destruct Hx as [[]|Hx].
        apply pos_In in Hx. right. exists b. split; [now left|]. exists box2. tauto.
      * right. exists b'. split; auto. now right.
    + intros [Hx|(b' & [->|Hb] & Hn)]; apply Hr.
      * left. apply fold_add_In. auto.
      * left. apply fold_add_In. right. apply fold_add_In. right. apply pos_In.
        destruct Hn as (bx & Ebx & _ & P & Q). assert (bx = box2) as -> by congruence. auto.
      * right. eauto.
Qed.

(** bladd_neighbors appends the neighbours of the box that are not yet in the list, each once. *)
Theorem C51_neighbours boxes b box bl l : nth_error boxes b = Some box -> holds bl l ->
  exists bl' m, bladd_neighbors (b_nb box) bl = Ok bl' /\ holds bl' (l ++ m) /\ NoDup m /\
    forall x, In x m <-> neighbour boxes (Z.of_nat b) x /\ ~ In x l.
Proof.
  intros Eb H%holds_Is. destruct (bladd_neighbors_ok (b_nb box) bl l H) as (bl' & E & I).
  assert (G : forall k l, exists m, fold_left addn k l = l ++ m /\ NoDup m /\ forall x, In x m <-> In x k /\ ~ In x l).
  { clear. induction k as [|y k IH]; intros l; cbn [fold_left].
    - exists []. rewrite app_nil_r. split; auto. split; [constructor|]. intros x. simpl. tauto.
    - unfold add_new at 2. destruct (in_dec Z.eq_dec y l) as [Iy|Iy].
      + destruct (IH l) as (m & -> & N & Hm). exists m. split; auto. split; auto. intros x. rewrite Hm. simpl. split; [tauto|].
        intros [[->|Q] R]; [contradiction|]. auto.
      + destruct (IH (l ++ [y])) as (m & -> & N & Hm). exists (y :: m). rewrite <- app_assoc. split; auto. split.
        { constructor; auto. intros Q. apply Hm in Q. destruct Q as [_ Q]. apply Q. apply in_or_app. right. now left. }
        intros x. simpl. rewrite Hm, in_app_iff. simpl. destruct (Z.eq_dec y x) as [->|NE]; tauto. }
  destruct (G (pos (b_nb box)) l) as (m & Em & N & Hm). rewrite Em in I.
  exists bl', m. split; auto. split. { now apply holds_Is. } split; auto.
  intros x. rewrite Hm, pos_In. split.
  - intros [[P Q] R]. split; auto. exists box. rewrite Nat2Z.id. repeat split; auto; lia.
  - intros [(bx & E1 & _ & P & Q) R]. rewrite Nat2Z.id in E1. assert (bx = box) as -> by congruence. auto.
Qed.
(** bladd_neighbors_of_neighbors appends exactly the next-nearest neighbours, each once. *)
Theorem C51_neighbours_of_neighbours boxes b bl l : wf_boxes boxes -> b < List.length boxes -> holds bl l ->
  exists bl' m, bladd_neighbors_of_neighbors boxes b bl = Ok bl' /\ holds bl' (l ++ m) /\ NoDup m /\
    forall x, In x m <->
      x <> Z.of_nat b /\ ~ neighbour boxes (Z.of_nat b) x /\
      exists y, neighbour boxes (Z.of_nat b) y /\ neighbour boxes y x.
Proof.
  intros WF Hb H%holds_Is. unfold bladd_neighbors_of_neighbors.
  destruct (nth_error boxes b) as [box|] eqn:Eb. 2:{ apply nth_error_None in Eb. lia. }
  destruct (bladd_neighbors_ok (b_nb box) (alloc Z) [] (Is_alloc Z)) as (bln & -> & In1). cbn [rbind].
  set (ln := fold_left addn (pos (b_nb box)) []) in *.
  assert (Hln : forall x, In x ln <-> neighbour boxes (Z.of_nat b) x).
  { intros x. unfold ln. rewrite fold_add_In, pos_In. split.
    - intros [[]|[P Q]]. exists box. rewrite Nat2Z.id. repeat split; auto; lia.
    - intros (bx & E1 & _ & P & Q). rewrite Nat2Z.id in E1. assert (bx = box) as -> by congruence. auto. }
  assert (Nn : n bln = List.length ln) by (destruct In1 as (r & _ & ?); auto).
  rewrite Nn.
  destruct (nn_loop_ok boxes bln ln WF In1) with (todo := ln) (done := @nil Z) (blnn := alloc Z) (m := @nil Z)
    as (r & m' & Er & Ir & Nr & Hr); auto.
  { intros x Hx. apply Hln in Hx. destruct Hx as (bx & E1 & _ & P & Q). split; auto.
    apply (WF bx); auto. eapply nth_error_In; eauto. }
  { apply Is_alloc. }
  { constructor. }
  cbn [List.length] in Er. rewrite Er. cbn [rbind].
  destruct (droplist_ok Z Z.eqb Z.eq_dec Z.eqb_eq r bln m' ln Ir In1) as (r1 & -> & I1). cbn [rbind].
  destruct (drop_ok Z Z.eqb Z.eq_dec Z.eqb_eq r1 _ (Z.of_nat b) I1) as (r2 & -> & I2). cbn [rbind].
  destruct (pushlist_ok Z bl r2 l _ H I2) as (r3 & -> & I3).
  eexists _, _. split; [reflexivity|]. split. { apply holds_Is. exact I3. }
  split. { apply rem1_NoDup. now apply fold_rem_NoDup. }
  intros x. rewrite rem1_In by (now apply fold_rem_NoDup). rewrite fold_rem_In by auto. rewrite Hr, Hln. split.
  - intros [[[[]|(y & Hy & N)] NN] NE]. repeat split; auto. exists y. split; auto. now apply Hln.
  - intros (NE & NN & y & N1 & N2). repeat split; auto. right. exists y. split; auto. now apply Hln.
Qed.
(** bladd_if(not)Attrib appends, in increasing order, the active boxes that (do not) have the
    attribute value; bl2_if(not)Attrib does so for the boxes of a list. *)
Definition has_attr (bs : list bbox) (iA : nat) (val : Z) (want : bool) (b : Z) : Prop :=
  exists x a, nth_error bs (Z.to_nat b) = Some x /\ nth_error (b_attrib x) iA = Some a /\ (if want then a = val else a <> val).
Theorem C51_attributes want bs iA val bl l : holds bl l ->
  (forall x, In x bs -> iA < List.length (b_attrib x)) ->
  exists bl' m, bladd_attr want bs 0 iA val bl = Ok bl' /\ holds bl' (l ++ m) /\ StronglySorted Z.lt m /\
    forall b, In b m <-> (0 <= b)%Z /\ has_attr bs iA val want b /\
      exists x, nth_error bs (Z.to_nat b) = Some x /\ b_inactive x = false.
Proof.
  intros H%holds_Is A.
  assert (G : forall todo done bl l, bs = done ++ todo -> Is Z bl l ->
    exists bl' m, bladd_attr want todo (List.length done) iA val bl = Ok bl' /\ Is Z bl' (l ++ m) /\ StronglySorted Z.lt m /\
    forall b, In b m <-> (Z.of_nat (List.length done) <= b)%Z /\ has_attr bs iA val want b /\
      exists x, nth_error bs (Z.to_nat b) = Some x /\ b_inactive x = false).
  { clear H. induction todo as [|x todo IH]; intros done bl0 l0 E I; cbn [bladd_attr].
    - exists bl0, []. rewrite app_nil_r. split; auto. split; auto. split. { constructor. }
      intros b. split; [intros []|]. intros (P & _ & x & Hx & _).
      assert (Z.to_nat b < List.length bs) by (apply nth_error_Some; congruence).
      rewrite E, app_length in H. simpl in H. lia.
    - assert (Ex : nth_error bs (List.length done) = Some x). { rewrite E. now apply nthl_mid. }
      assert (E' : bs = (done ++ [x]) ++ todo) by (now rewrite <- app_assoc).
      assert (Ls : List.length (done ++ [x]) = S (List.length done)) by (rewrite app_length; simpl; lia).
      destruct (b_inactive x) eqn:Ina.
      + destruct (IH (done ++ [x]) bl0 l0 E' I) as (bl' & m & Em & Im & Sm & Hm). rewrite Ls in *.
        exists bl', m. split; auto. split; auto. split; auto. intros b. rewrite Hm. split.
        * intros (P & Q). split; auto. lia.
        * intros (P & Q & y & Hy & Iy). split; eauto.
          destruct (Z.eq_dec b (Z.of_nat (List.length done))) as [->|]; [|lia].
          rewrite Nat2Z.id in Hy. congruence.
      + destruct (nth_error (b_attrib x) iA) as [a|] eqn:Ea.
        2:{ apply nth_error_None in Ea. specialize (A x). assert (In x bs) by (eapply nth_error_In; eauto). apply A in H. lia. }
        assert (Ha : has_attr bs iA val want (Z.of_nat (List.length done)) <-> (if want then a = val else a <> val)).
        { split.
          - intros (x' & a' & E1 & E2 & E3). rewrite Nat2Z.id in E1. assert (x' = x) as -> by congruence.
            assert (a' = a) as -> by congruence. auto.
          - intros Q. exists x, a. rewrite Nat2Z.id. auto. }
        assert (Hb : Bool.eqb (a =? val)%Z want = true <-> (if want then a = val else a <> val)).
        { destruct (Z.eqb_spec a val), want; simpl; intuition congruence. }
        destruct (Bool.eqb (a =? val)%Z want).
        * destruct (push_ok Z bl0 l0 (Z.of_nat (List.length done)) I) as (bl1 & -> & I1). cbn [rbind].
          destruct (IH (done ++ [x]) bl1 _ E' I1) as (bl' & m & Em & Im & Sm & Hm). rewrite Ls in *.
          exists bl', (Z.of_nat (List.length done) :: m). rewrite <- app_assoc in Im. split; auto. split; auto. split.
          { constructor; auto. apply Forall_forall. intros y Hy. apply Hm in Hy. lia. }
          intros b. simpl. rewrite Hm. split.
          -- intros [<-|(P & Q & R)]. { rewrite Nat2Z.id. split; [lia|]. split; [apply Ha; now apply Hb|]. eauto. }
             split; auto. lia.
          -- intros (P & Q & R). destruct (Z.eq_dec b (Z.of_nat (List.length done))) as [->|]; auto. right. split; auto. lia.
        * cbn [rbind]. destruct (IH (done ++ [x]) bl0 l0 E' I) as (bl' & m & Em & Im & Sm & Hm). rewrite Ls in *.
          exists bl', m. split; auto. split; auto. split; auto. intros b. rewrite Hm. split.
          -- intros (P & Q). split; auto. lia.
          -- intros (P & Q & R). split; auto. destruct (Z.eq_dec b (Z.of_nat (List.length done))) as [->|]; [|lia].
             exfalso. apply Ha in Q. apply Hb in Q. discriminate. }
  destruct (G bs [] bl l eq_refl H) as (bl' & m & E & I & S & Hm). exists bl', m.
  split; auto. split. { now apply holds_Is. } auto.
Qed.
Theorem C51_sublist want bs iA val bl1 l1 bl2 l2 : holds bl1 l1 -> holds bl2 l2 ->
  (forall x, In x bs -> iA < List.length (b_attrib x)) ->
  (forall b, In b l1 -> (0 <= b < Z.of_nat (List.length bs))%Z) ->
  exists bl' m, bl2_attr (n bl1) 0 want bs bl1 iA val bl2 = Ok bl' /\ holds bl' (l2 ++ m) /\
    exists keep : Z -> bool, m = filter keep l1 /\ forall b, In b l1 -> (keep b = true <-> has_attr bs iA val want b).
Proof.
  intros H1%holds_Is H2%holds_Is A V.
  set (keep := fun b => match nth_error bs (Z.to_nat b) with
     | Some x => match nth_error (b_attrib x) iA with Some a => Bool.eqb (a =? val)%Z want | None => false end
     | None => false end).
  assert (G : forall todo done bl2 l2, l1 = done ++ todo -> Is Z bl2 l2 ->
    exists bl', bl2_attr (List.length todo) (List.length done) want bs bl1 iA val bl2 = Ok bl' /\
      Is Z bl' (l2 ++ filter keep todo)).
  { clear H2. induction todo as [|b todo IH]; intros done b2 m2 E I; cbn [List.length bl2_attr filter].
    - exists b2. rewrite app_nil_r. auto.
    - rewrite (lget_in Z bl1 l1 _ b H1). 2:{ rewrite E. now apply nthl_mid. }
      cbn [rbind]. destruct (V b) as [V1 V2]. { rewrite E. apply in_or_app. right. now left. }
      replace (b <? 0)%Z with false by (symmetry; apply Z.ltb_ge; lia).
      assert (E' : l1 = (done ++ [b]) ++ todo) by (now rewrite <- app_assoc).
      assert (Ls : List.length (done ++ [b]) = S (List.length done)) by (rewrite app_length; simpl; lia).
      unfold keep at 1. destruct (nth_error bs (Z.to_nat b)) as [x|] eqn:Ex. 2:{ apply nth_error_None in Ex. lia. }
      destruct (nth_error (b_attrib x) iA) as [a|] eqn:Ea.
      2:{ apply nth_error_None in Ea. assert (In x bs) as Q by (eapply nth_error_In; eauto). apply A in Q. lia. }
      destruct (Bool.eqb (a =? val)%Z want).
      + destruct (push_ok Z b2 m2 b I) as (b3 & -> & I3). cbn [rbind]. rewrite <- Ls.
        destruct (IH _ b3 _ E' I3) as (bl' & -> & I'). exists bl'. split; auto. rewrite <- app_assoc in I'. exact I'.
      + cbn [rbind]. rewrite <- Ls. apply IH; auto. }
  assert (N : n bl1 = List.length l1) by (destruct H1 as (r & _ & ?); auto). rewrite N.
  destruct (G l1 [] bl2 l2 eq_refl H2) as (bl' & E & I). exists bl', (filter keep l1). split; auto.
  split. { now apply holds_Is. } exists keep. split; auto. intros b Hb. destruct (V b Hb) as [V1 V2]. unfold keep, has_attr.
  destruct (nth_error bs (Z.to_nat b)) as [x|] eqn:Ex. 2:{ apply nth_error_None in Ex. lia. }
  destruct (nth_error (b_attrib x) iA) as [a|] eqn:Ea.
  2:{ apply nth_error_None in Ea. assert (In x bs) as Q by (eapply nth_error_In; eauto). apply A in Q. lia. }
  split.
  - intros Q. exists x, a. repeat split; auto. destruct (Z.eqb_spec a val), want; simpl in Q; congruence.
  - intros (x' & a' & E1 & E2 & E3). assert (x' = x) as -> by congruence. assert (a' = a) as -> by congruence.
    destruct (Z.eqb_spec a val), want; simpl; congruence.
Qed.
(** A chain of four boxes 0-1-2-3 meets the hypotheses; box 3 is a next-nearest neighbour of 1. *)
Definition chain : list bbox :=
  [ {| b_inactive := false; b_attrib := [7]; b_nb := [-1; 1] |}; {| b_inactive := false; b_attrib := [8]; b_nb := [0; 2; 2] |};
    {| b_inactive := true; b_attrib := [7]; b_nb := [3; 1] |}; {| b_inactive := false; b_attrib := [7]; b_nb := [2] |} ]%Z.
Example C51_ex : wf_boxes chain /\
  bladd_neighbors_of_neighbors chain 1 {| e := [Some 9%Z]; n := 1 |} = Ok {| e := [Some 9; Some 3]%Z; n := 2 |} /\
  bladd_attr true chain 0 0 7 (alloc Z) = Ok {| e := [Some 0; Some 3]%Z; n := 2 |}.
Proof.
  split; [|split; reflexivity]. intros box x Hb Hx. unfold chain in *. simpl in *.
  repeat (destruct Hb as [<-|Hb]; [simpl in Hx; lia|]). destruct Hb.
Qed.

Print Assumptions C13_lists.
Print Assumptions C13_union_nodup.
Print Assumptions C13_pushlist_self_refuted.
Print Assumptions C13_droplist_self_refuted.
Print Assumptions C51_neighbours.
Print Assumptions C51_neighbours_of_neighbours.
Print Assumptions C51_attributes.
Print Assumptions C51_sublist.
