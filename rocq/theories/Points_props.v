(** C14 (point lists) and C52 (loops over point lists). *)
From Verif Require Import Base Lists_model Lists_spec Lists_api_spec Lists_proofs Lists_props Points_model Points_spec.

(** the events of an API call; a list of dropped points has to be a proper list object *)
Definition ev (o : pop) (h : list pev) : Prop :=
  match o with
  | Padd b p => h = [Added b p]
  | Pdrop b p => h = [Dropped b p]
  | Pdroplist b d => exists l, holds d l /\ h = map (Dropped b) l
  end.
Definition opbox (o : pop) : nat := match o with Padd b _ => b | Pdrop b _ => b | Pdroplist b _ => b end.
Inductive evs : list pop -> list pev -> Prop :=
| evs_nil : evs [] []
| evs_cons o os h hs : ev o h -> evs os hs -> evs (o :: os) (h ++ hs).
(** boxes that ever got a point, in the order of their first point *)
Fixpoint boxes_of (acc : list Z) (h : list pev) : list Z :=
  match h with
  | [] => acc
  | Added b _ :: r => boxes_of (add_new Z Z.eq_dec acc (Z.of_nat b)) r
  | Dropped _ _ :: r => boxes_of acc r
  end.
(** the point list holds the sequences c0, c1, ... in its boxes and the boxes bs in blist *)
Definition PLholds (PL : plist) (c : list (list Z)) (bs : list Z) : Prop :=
  Forall2 holds (pts PL) c /\ holds (blist PL) bs.

Definition PR (PL : plist) (c : list (list Z)) (bs : list Z) : Prop :=
  Forall2 (Is Z) (pts PL) c /\ Is Z (blist PL) bs.
Lemma PR_holds PL c bs : PR PL c bs <-> PLholds PL c bs.
Proof.
  unfold PR, PLholds. rewrite holds_Is. split; intros [A B]; split; auto.
  - induction A; constructor; auto. now apply holds_Is.
  - induction A; constructor; auto. now apply holds_Is.
Qed.
Lemma setpush v l x : Is Z v l ->
  exists v', lset Z {| e := lrealloc Z (e v) (n v + 2); n := n v |} (n v) x = Ok v' /\
    Is Z {| e := e v'; n := n v + 1 |} (l ++ [x]).
Proof.
  intros (rest & B & N). rewrite B. destruct (lrealloc_grow Z l rest (n v) 2 N) as (rest' & -> & Lr).
  destruct rest' as [|y r]; try discriminate. rewrite (lset_mid Z _ l y r) by auto.
  eexists. split; [reflexivity|]. exists r. simpl. split; auto. rewrite app_length. simpl. lia.
Qed.
Lemma realloc_Is v l k : Is Z v l -> Is Z {| e := lrealloc Z (e v) (n v + k); n := n v |} l.
Proof.
  intros (rest & B & N). rewrite B. destruct (lrealloc_grow Z l rest (n v) k N) as (rest' & -> & Lr).
  exists rest'. auto.
Qed.
Lemma blist_ok v l x : Is Z v l ->
  exists v', addto_blist x {| e := lrealloc Z (e v) (n v + 2); n := n v |} = Ok v' /\ Is Z v' (add_new Z Z.eq_dec l x).
Proof.
  intros I. unfold addto_blist, add_new.
  destruct (search_all Z Z.eqb Z.eq_dec Z.eqb_eq _ x l (realloc_Is v l 2 I)) as ([i|] & E & H); rewrite E; cbn [rbind].
  - destruct H as (a & b & -> & _). destruct (in_dec Z.eq_dec x (a ++ x :: b)) as [|C].
    + eexists. split; [reflexivity|]. now apply realloc_Is.
    + exfalso. apply C. apply in_or_app. right. now left.
  - destruct (in_dec Z.eq_dec x l); [contradiction|]. cbn [Lists_model.n].
    destruct (setpush v l x I) as (v' & -> & I'). cbn [rbind]. eauto.
Qed.
Lemma F2_nth (h : list (tlist Z)) c b : Forall2 (Is Z) h c -> b < List.length c ->
  exists a l, nth_error h b = Some a /\ nth_error c b = Some l /\ Is Z a l.
Proof.
  intros F. revert b. induction F; intros [|b] H1; simpl in *; try lia; eauto. apply IHF. lia.
Qed.
Lemma F2_upd (h : list (tlist Z)) c b a l : Forall2 (Is Z) h c -> Is Z a l -> Forall2 (Is Z) (upd h b a) (upd c b l).
Proof. intros F I. revert b. induction F; intros [|b]; simpl; constructor; auto. Qed.

Fixpoint cstep (c : list (list Z)) (h : list pev) : list (list Z) :=
  match h with
  | [] => c
  | Added b p :: r => cstep (match nth_error c b with Some l => upd c b (l ++ [p]) | None => c end) r
  | Dropped b p :: r => cstep (match nth_error c b with Some l => upd c b (rem1 Z Z.eq_dec p l) | None => c end) r
  end.
Lemma cstep_app h : forall c h', cstep c (h ++ h') = cstep (cstep c h) h'.
Proof. induction h as [|[b p|b p] h IH]; simpl; intros; auto. Qed.
Lemma cstep_length h : forall c, List.length (cstep c h) = List.length c.
Proof.
  induction h as [|[b p|b p] h IH]; simpl; intros c; auto; rewrite IH; destruct (nth_error c b); auto; apply upd_length.
Qed.
Lemma cstep_droplist b l : forall c m, nth_error c b = Some m ->
  cstep c (map (Dropped b) l) = upd c b (fold_left (fun l x => rem1 Z Z.eq_dec x l) l m).
Proof.
  induction l as [|x l IH]; intros c m E; simpl.
  - symmetry. now apply upd_same_l.
  - rewrite E. rewrite (IH _ (rem1 Z Z.eq_dec x m)).
    + clear. revert b. induction c as [|y c IH]; intros [|b]; simpl; auto. now rewrite IH.
    + apply nth_error_upd_eq. apply nth_error_Some. congruence.
Qed.
Lemma boxes_app h : forall a h', boxes_of a (h ++ h') = boxes_of (boxes_of a h) h'.
Proof. induction h as [|[b p|b p] h IH]; simpl; intros; auto. Qed.
Lemma boxes_drop b l : forall a, boxes_of a (map (Dropped b) l) = a.
Proof. induction l; simpl; auto. Qed.
Lemma pstep_ok PL c bs o h : PR PL c bs -> ev o h -> opbox o < List.length c ->
  exists PL', pstep PL o = Ok PL' /\ PR PL' (cstep c h) (boxes_of bs h).
Proof.
  intros [A B] E L. destruct o as [b p|b p|b d]; simpl in *;
    destruct (F2_nth _ _ b A L) as (a & l & Ea & Ec & I).
  - subst h. unfold AddToPointList. rewrite Ea. destruct (setpush a l p I) as (a' & -> & Ia). cbn [rbind].
    destruct (blist_ok _ _ (Z.of_nat b) B) as (bl & -> & Ib). cbn [rbind].
    eexists. split; [reflexivity|]. simpl. rewrite Ec. split; simpl; auto. now apply F2_upd.
  - subst h. unfold DropFromPointList. rewrite Ea.
    destruct (drop_ok Z Z.eqb Z.eq_dec Z.eqb_eq a l p I) as (a' & -> & Ia). cbn [rbind].
    eexists. split; [reflexivity|]. simpl. rewrite Ec. split; simpl; auto. now apply F2_upd.
  - destruct E as (m & Hd%holds_Is & ->). unfold DropListFromPointList. rewrite Ea.
    destruct (droplist_ok Z Z.eqb Z.eq_dec Z.eqb_eq a d l m I Hd) as (a' & -> & Ia). cbn [rbind].
    eexists. split; [reflexivity|]. rewrite (cstep_droplist _ _ _ _ Ec), boxes_drop. split; simpl; auto. now apply F2_upd.
Qed.
Lemma prun_ok os h : evs os h -> forall PL c bs, PR PL c bs -> Forall (fun o => opbox o < List.length c) os ->
  exists PL', prun PL os = Ok PL' /\ PR PL' (cstep c h) (boxes_of bs h).
Proof.
  induction 1 as [|o os h hs E H IH]; intros PL c bs P F; simpl.
  - eauto.
  - inversion F; subst. destruct (pstep_ok _ _ _ _ _ P E H2) as (PL1 & -> & P1). cbn [rbind].
    rewrite cstep_app, boxes_app. apply IH; auto. rewrite cstep_length. auto.
Qed.
Lemma cstep_points h : forall c b l, nth_error c b = Some l -> nth_error (cstep c h) b = Some (points_of b l h).
Proof.
  induction h as [|[b' p|b' p] h IH]; simpl; intros c b l E; auto.
  - apply IH. destruct (Nat.eqb_spec b b') as [<-|NE].
    + rewrite E. apply nth_error_upd_eq. apply nth_error_Some. congruence.
    + destruct (nth_error c b'); auto. rewrite nth_error_upd_ne; auto.
  - apply IH. destruct (Nat.eqb_spec b b') as [<-|NE].
    + rewrite E. apply nth_error_upd_eq. apply nth_error_Some. congruence.
    + destruct (nth_error c b'); auto. rewrite nth_error_upd_ne; auto.
Qed.

(** ** C14 *)
(** After any history of adding and dropping on boxes of the grid, box b holds exactly the points
    added and not dropped, in order; blist is free of duplicates and holds the boxes that ever
    got a point. *)
Theorem C14_pointlist nboxes os h : evs os h -> Forall (fun o => opbox o < nboxes) os ->
  exists PL c bs, prun (AllocatePointList nboxes) os = Ok PL /\ PLholds PL c bs /\ List.length c = nboxes /\
    (forall b, b < nboxes -> nth_error c b = Some (points_of b [] h)) /\
    NoDup bs /\ forall b, In (Z.of_nat b) bs <-> exists p, In (Added b p) h.
Proof.
  intros E F.
  destruct (prun_ok os h E (AllocatePointList nboxes) (repeat [] nboxes) []) as (PL & R & P).
  { split; [|apply Is_alloc]. simpl. clear. induction nboxes; simpl; constructor; auto. apply Is_alloc. }
  { rewrite repeat_length. auto. }
  exists PL, (cstep (repeat [] nboxes) h), (boxes_of [] h). split; auto. split. { now apply PR_holds. }
  split. { rewrite cstep_length. apply repeat_length. }
  split. { intros b Hb. apply cstep_points. apply nth_error_repeat. auto. }
  assert (G : forall h a, NoDup a -> NoDup (boxes_of a h) /\
    forall b, In (Z.of_nat b) (boxes_of a h) <-> In (Z.of_nat b) a \/ exists p, In (Added b p) h).
  { clear. induction h as [|[b' p|b' p] h IH]; simpl; intros a N.
    - split; auto. intros b. split; auto. intros [|[]]; tauto.
    - destruct (IH (add_new Z Z.eq_dec a (Z.of_nat b'))) as [N1 H1]. { now apply (fold_add_nodup Z Z.eq_dec [Z.of_nat b']). }
      split; auto. intros b. rewrite H1. rewrite (fold_add_In [Z.of_nat b'] a). simpl. split.
      + intros [[|[Q|[]]]|(q & Q)]; eauto. apply Nat2Z.inj in Q. subst. eauto.
      + intros [|(q & [Q|Q])]; auto. { injection Q as <- <-. auto. } right. eauto.
    - destruct (IH a N) as [N1 H1]. split; auto. intros b. rewrite H1. split.
      + intros [|(q & Q)]; eauto.
      + intros [|(q & [Q|Q])]; auto. { discriminate. } eauto. }
  destruct (G h [] (NoDup_nil _)) as [N H]. split; auto. intros b. rewrite H. simpl. tauto.
Qed.

(** duplicating *)
Lemma copy_ok src l : Is Z src l -> forall todo done rest, l = done ++ todo -> List.length todo <= List.length rest ->
  forall k, copy_loop (List.length todo) (List.length done) src {| e := map Some done ++ rest; n := k |} =
    Ok {| e := map Some l ++ skipn (List.length todo) rest; n := k |}.
Proof.
  intros I. induction todo as [|x todo IH]; intros done rest E Lr k; cbn [List.length copy_loop].
  - rewrite app_nil_r in E. subst. reflexivity.
  - rewrite (lget_in Z src l _ x I). 2:{ rewrite E. now apply nthl_mid. }
    cbn [rbind]. destruct rest as [|y rest]; simpl in Lr; [lia|].
    rewrite (lset_mid Z _ done y rest) by auto. cbn [rbind Lists_model.n]. rewrite <- (Nat.add_1_r (List.length done)).
    assert (List.length done + 1 = List.length (done ++ [x])) as -> by (rewrite app_length; reflexivity).
    rewrite IH; [|now rewrite <- app_assoc|lia]. reflexivity.
Qed.
Lemma copy_overflow src l : Is Z src l -> forall todo done rest, l = done ++ todo -> List.length rest < List.length todo ->
  forall k, copy_loop (List.length todo) (List.length done) src {| e := map Some done ++ rest; n := k |} = UB.
Proof.
  intros I. induction todo as [|x todo IH]; intros done rest E Lr k; cbn [List.length copy_loop]; simpl in Lr; [lia|].
  rewrite (lget_in Z src l _ x I). 2:{ rewrite E. now apply nthl_mid. }
  cbn [rbind]. destruct rest as [|y rest].
  - unfold lset. simpl. rewrite app_nil_r, map_length, Nat.ltb_irrefl. reflexivity.
  - rewrite (lset_mid Z _ done y rest) by auto. cbn [rbind Lists_model.n]. rewrite <- (Nat.add_1_r (List.length done)).
    assert (List.length done + 1 = List.length (done ++ [x])) as -> by (rewrite app_length; reflexivity).
    simpl in Lr. rewrite IH; [|now rewrite <- app_assoc|lia]. reflexivity.
Qed.
Lemma dup_boxes_ok ps c : Forall2 (Is Z) ps c -> exists qs, dup_boxes ps = Ok qs /\ Forall2 (Is Z) qs c.
Proof.
  induction 1 as [|a l ps c I F (qs & E & Q)]; simpl.
  - eauto.
  - assert (N : n a = List.length l) by (destruct I as (r & _ & ?); auto). rewrite N.
    pose proof (copy_ok a l I l [] (repeat None (List.length l + 2)) eq_refl) as P. cbn [map app List.length] in P.
    rewrite P by (rewrite repeat_length; lia). cbn [rbind]. rewrite E. cbn [rbind].
    eexists. split; [reflexivity|]. constructor; auto. eexists. split; reflexivity.
Qed.
(** Duplicating gives an equal point list, if at most two boxes ever got points ... *)
Theorem C14_duplicate_partial PL c bs : PLholds PL c bs -> List.length bs <= 2 ->
  exists PL', DuplicatePointList PL = Ok PL' /\ PLholds PL' c bs.
Proof.
  intros [A B]%PR_holds L. unfold DuplicatePointList.
  destruct (dup_boxes_ok _ _ A) as (qs & -> & Q). cbn [rbind].
  assert (N : n (blist PL) = List.length bs) by (destruct B as (r & _ & ?); auto). rewrite N.
  pose proof (copy_ok (blist PL) bs B bs [] (repeat None 2) eq_refl) as P. cbn [map app List.length] in P.
  rewrite P by (rewrite repeat_length; lia). cbn [rbind]. eexists. split; [reflexivity|]. apply PR_holds. split; auto.
  eexists. split; reflexivity.
Qed.
(** ... and with three or more boxes it always writes behind the end of the new blist. *)
Theorem C14_duplicate_refuted PL c bs : PLholds PL c bs -> 2 < List.length bs -> DuplicatePointList PL = UB.
Proof.
  intros [A B]%PR_holds L. unfold DuplicatePointList.
  destruct (dup_boxes_ok _ _ A) as (qs & -> & Q). cbn [rbind].
  assert (N : n (blist PL) = List.length bs) by (destruct B as (r & _ & ?); auto). rewrite N.
  pose proof (copy_overflow (blist PL) bs B bs [] (repeat None 2) eq_refl) as P. cbn [map app List.length] in P.
  rewrite P by (rewrite repeat_length; lia). reflexivity.
Qed.
Example C14_ex : exists PL, 
  prun (AllocatePointList 3) [Padd 2 10; Padd 0 11; Padd 2 12; Pdrop 2 10; Padd 1 4]%Z = Ok PL /\
  DuplicatePointList PL = UB /\
  points_of 2 [] [Added 2 10; Added 0 11; Added 2 12; Dropped 2 10; Added 1 4]%Z = [12%Z].
Proof. eexists. repeat split. Qed.

(** ** C52 *)
Lemma peek_in l m i x : Is Z l m -> nth_error m i = Some x -> peek l i = Ok x.
Proof.
  intros I E. pose proof (lget_in Z l m i x I E) as H. unfold lget in H. unfold peek.
  destruct (nth_error (e l) i) as [[y|]|]; congruence.
Qed.
Lemma visit_ok l m : Is Z l m -> forall todo done x, m = done ++ x :: todo ->
  visit_box (S (List.length todo)) (List.length done) x l = Ok (x :: todo).
Proof.
  intros I. assert (N : n l = List.length m) by (destruct I as (r & _ & ?); auto).
  induction todo as [|y todo IH]; intros done x E.
  - cbn [visit_box List.length]. rewrite N. assert (S (List.length done) =? List.length m = true) as ->.
    { apply Nat.eqb_eq. rewrite E, app_length. simpl. lia. }
    simpl. rewrite Nat.sub_0_r. rewrite (peek_in l m _ x I). { reflexivity. } rewrite E. now apply nthl_mid.
  - cbn [List.length]. change (visit_box (S (S (List.length todo))) (List.length done) x l) with
      (do nxt <- peek l (if S (List.length done) =? n l then S (List.length done) - 1 else S (List.length done));
       do r <- visit_box (S (List.length todo)) (S (List.length done)) nxt l; Ok (x :: r)).
    rewrite N. assert (S (List.length done) =? List.length m = false) as ->.
    { apply Nat.eqb_neq. rewrite E, app_length. simpl. lia. }
    assert (E' : m = (done ++ [x]) ++ y :: todo) by (now rewrite <- app_assoc).
    rewrite (peek_in l m _ y I). 2:{ rewrite E'. apply nthl_mid. rewrite app_length. simpl. lia. }
    cbn [rbind]. specialize (IH (done ++ [x]) y E'). rewrite app_length, Nat.add_1_r in IH. rewrite IH. reflexivity.
Qed.
(** the pairs (box, point) of the active boxes, in order *)
Fixpoint all_points (inactive : nat -> bool) (b : nat) (c : list (list Z)) : list (nat * Z) :=
  match c with
  | [] => []
  | l :: r => (if inactive b then [] else map (pair b) l) ++ all_points inactive (S b) r
  end.
(** forPointList visits exactly the points of the active boxes in order, if none of the active
    boxes is empty. *)
Theorem C52_forPointList_partial inactive PL c bs : PLholds PL c bs ->
  (forall b l, nth_error c b = Some l -> inactive b = false -> l <> []) ->
  forPointList inactive 0 (pts PL) = Ok (all_points inactive 0 c).
Proof.
  intros [A _]%PR_holds NE0.
  assert (G : forall b0, (forall b l, nth_error c b = Some l -> inactive (b0 + b) = false -> l <> []) ->
     forPointList inactive b0 (pts PL) = Ok (all_points inactive b0 c)).
  { clear NE0. induction A as [|a l ps c I F IH]; intros b0 NE; cbn [forPointList all_points]; auto.
    destruct (inactive b0) eqn:Ina.
    - simpl. apply IH. intros b l' E H. apply (NE (S b) l' E). now rewrite Nat.add_succ_r.
    - pose proof (NE 0 l eq_refl) as N0. rewrite Nat.add_0_r in N0. specialize (N0 Ina).
      destruct l as [|x l]; [congruence|].
      rewrite (peek_in a (x :: l) 0 x I eq_refl). cbn [rbind].
      assert (n a = S (List.length l)) as -> by (destruct I as (r & _ & ->); reflexivity).
      pose proof (visit_ok a _ I l [] x eq_refl) as V. cbn [List.length] in V. rewrite V. cbn [rbind].
      rewrite IH. { reflexivity. }
      intros b l' E H. apply (NE (S b) l' E). now rewrite Nat.add_succ_r. }
  apply G. exact NE0.
Qed.
(** The loop reads through a NULL pointer as soon as some active box never got a point. *)
Theorem C52_forPointList_refuted : exists PL,
  prun (AllocatePointList 2) [Padd 0 7%Z] = Ok PL /\ forPointList (fun _ => false) 0 (pts PL) = UB.
Proof. eexists. split; reflexivity. Qed.
Example C52_ex : exists PL,
  prun (AllocatePointList 2) [Padd 0 7; Padd 1 8; Padd 1 9]%Z = Ok PL /\
  forPointList (fun _ => false) 0 (pts PL) = Ok [(0, 7%Z); (1, 8%Z); (1, 9%Z)].
Proof. eexists. split; reflexivity. Qed.

Print Assumptions C14_pointlist.
Print Assumptions C14_duplicate_partial.
Print Assumptions C14_duplicate_refuted.
Print Assumptions C52_forPointList_partial.
Print Assumptions C52_forPointList_refuted.
