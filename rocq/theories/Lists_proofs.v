(** Proofs for the list templates (C13). *)
From Verif Require Import Base Lists_model Lists_spec Lists_api_spec.

Lemma updl_app {A} (a : list A) x r y i : i = List.length a -> upd (a ++ x :: r) i y = a ++ y :: r.
Proof. intros ->. induction a as [|z a IH]; simpl; auto. now rewrite IH. Qed.
Lemma nthl_mid {A} (a : list A) x r i : i = List.length a -> nth_error (a ++ x :: r) i = Some x.
Proof. intros ->. rewrite nth_error_app2 by lia. now rewrite Nat.sub_diag. Qed.
Lemma upd_same_l {A} (l : list A) i x : nth_error l i = Some x -> upd l i x = l.
Proof. revert i. induction l as [|y l IH]; intros [|i] H; simpl in *; try discriminate; auto; [congruence|]. now rewrite IH. Qed.

Section P.
Variable T : Type.
Variable eqb : T -> T -> bool.
Variable dec : forall a b : T, {a = b} + {a <> b}.
Hypothesis eqb_ok : forall a b, eqb a b = true <-> a = b.

Lemma eqb_dec a b : eqb a b = if dec a b then true else false.
Proof.
  destruct (dec a b) as [E|E]. { now apply eqb_ok. }
  destruct (eqb a b) eqn:H; auto. apply eqb_ok in H. contradiction.
Qed.

(** the buffer holds the sequence l *)
Definition Is (v : tlist T) (l : list T) : Prop :=
  exists rest, e v = map Some l ++ rest /\ n v = List.length l.

Lemma Is_alloc : Is (alloc T) [].
Proof. exists []. split; reflexivity. Qed.

Lemma lget_ok v l i : Is v l -> lget T v i = match nth_error l i with Some x => Ok x | None => lget T v i end.
Proof.
  intros (rest & B & N). destruct (nth_error l i) as [x|] eqn:E; auto.
  unfold lget. rewrite B, nth_error_app1. 2:{ rewrite map_length. apply nth_error_Some. congruence. }
  rewrite nth_error_map, E. reflexivity.
Qed.
Lemma lget_in v l i x : Is v l -> nth_error l i = Some x -> lget T v i = Ok x.
Proof. intros I E. rewrite (lget_ok v l i I), E. reflexivity. Qed.

Lemma lset_mid v l x rest i y : e v = map Some l ++ x :: rest -> i = List.length l ->
  lset T v i y = Ok {| e := map Some (l ++ [y]) ++ rest; n := n v |}.
Proof.
  intros B ->. unfold lset. rewrite B. replace (_ <? _) with true.
  2:{ symmetry. apply Nat.ltb_lt. rewrite app_length, map_length. simpl. lia. }
  f_equal. f_equal. rewrite updl_app by (now rewrite map_length). rewrite map_app, <- app_assoc. reflexivity.
Qed.
Lemma lrealloc_grow (l : list T) rest k m : k = List.length l ->
  exists rest', lrealloc T (map Some l ++ rest) (k + m) = map Some l ++ rest' /\ List.length rest' = m.
Proof.
  intros ->. unfold lrealloc. exists (firstn m rest ++ repeat None (m - List.length rest)). split.
  - rewrite <- (map_length Some l) at 1. rewrite firstn_app_2, <- app_assoc. f_equal. f_equal. f_equal.
    rewrite app_length, map_length. lia.
  - rewrite app_length, firstn_length, repeat_length. lia.
Qed.
Lemma push_ok v l x : Is v l -> exists v', push T v x = Ok v' /\ Is v' (l ++ [x]).
Proof.
  intros (rest & B & N). unfold push. rewrite B.
  destruct (lrealloc_grow l rest (n v) 1 N) as (rest' & -> & Lr).
  destruct rest' as [|y [|]]; try discriminate.
  rewrite (lset_mid _ l y []); [|reflexivity|simpl; lia].
  eexists. split; [reflexivity|]. exists []. split; [reflexivity|]. simpl. rewrite app_length. simpl. lia.
Qed.
Lemma pushlist_loop_ok l u : forall todo done v rest urest,
  e u = map Some (done ++ todo) ++ urest ->
  e v = map Some (l ++ done) ++ rest -> List.length rest = List.length todo ->
  pushlist_loop T (List.length todo) (List.length done) (List.length l) u v =
   Ok {| e := map Some (l ++ done ++ todo); n := n v |}.
Proof.
  induction todo as [|y todo IH]; intros done v rest urest Bu Bv Lr.
  - destruct rest; try discriminate. simpl. rewrite !app_nil_r in *. destruct v; simpl in *; now subst.
  - destruct rest as [|x rest]; try discriminate. cbn [List.length pushlist_loop].
    unfold lget. rewrite Bu, map_app, <- app_assoc. cbn [map app].
    rewrite nthl_mid by (now rewrite map_length). cbn [rbind].
    rewrite (lset_mid _ (l ++ done) x rest); auto. 2:{ now rewrite app_length. }
    cbn [rbind]. specialize (IH (done ++ [y]) {| e := map Some ((l ++ done) ++ [y]) ++ rest; n := n v |} rest urest).
    replace (S (List.length done)) with (List.length (done ++ [y])) by (rewrite app_length; simpl; lia).
    rewrite IH.
    + simpl. rewrite <- !app_assoc. reflexivity.
    + rewrite Bu, <- app_assoc. reflexivity.
    + simpl. rewrite <- app_assoc. reflexivity.
    + simpl in Lr. lia.
Qed.
Lemma pushlist_ok v u l m : Is v l -> Is u m -> exists v', pushlist T v u = Ok v' /\ Is v' (l ++ m).
Proof.
  intros (rest & B & N) (urest & Bu & Nu). unfold pushlist. rewrite B.
  destruct (lrealloc_grow l rest (n v) (n u) N) as (rest' & -> & Lr).
  replace (n v + n u - n u) with (List.length l) by lia. rewrite Nu.
  pose proof (pushlist_loop_ok l u m [] {| e := map Some l ++ rest'; n := n v + List.length m |} rest' urest) as P.
  cbn [List.length app] in P. rewrite P; auto.
  - eexists. split; [reflexivity|]. exists []. simpl. rewrite app_nil_r. split; auto. rewrite app_length. lia.
  - simpl. now rewrite app_nil_r.
  - congruence.
Qed.

(** searching *)
Lemma search_ok v vi : forall todo done, Is v (done ++ todo) ->
  exists f, search T eqb (List.length todo) (List.length done) vi v = Ok f /\
   match f with
   | Some i => exists a b, todo = a ++ vi :: b /\ ~ In vi a /\ i = List.length done + List.length a
   | None => ~ In vi todo
   end.
Proof.
  induction todo as [|y todo IH]; intros done I; cbn [search List.length].
  - exists None. split; auto.
  - rewrite (lget_in v _ _ y I) by (now apply nthl_mid). cbn [rbind]. rewrite eqb_dec.
    destruct (dec y vi) as [E|E].
    + subst. eexists. split; [reflexivity|]. exists [], todo. simpl. repeat split; auto.
    + destruct (IH (done ++ [y])) as (f & H & Hf). { now rewrite <- app_assoc. }
      rewrite app_length in H. simpl in H. rewrite Nat.add_1_r in H.
      exists f. split; auto. destruct f as [i|].
      * destruct Hf as (a & b & -> & Na & ->). exists (y :: a), b. simpl. repeat split; auto.
        -- intros [->|]; contradiction.
        -- rewrite app_length. simpl. lia.
      * intros [->|]; contradiction.
Qed.
Lemma search_all v vi l : Is v l ->
  exists f, search T eqb (n v) 0 vi v = Ok f /\
   match f with
   | Some i => exists a b, l = a ++ vi :: b /\ ~ In vi a /\ i = List.length a
   | None => ~ In vi l
   end.
Proof. intros I. destruct I as (rest & B & N) eqn:EI. rewrite N. clear EI. apply (search_ok v vi l []). exists rest. auto. Qed.

Lemma unionpush_ok v l x : Is v l -> exists v', unionpush T eqb v x = Ok v' /\ Is v' (add_new T dec l x).
Proof.
  intros I. unfold unionpush, add_new. destruct (search_all v x l I) as ([i|] & -> & H); cbn [rbind].
  - destruct H as (a & b & -> & _). destruct (in_dec dec x (a ++ x :: b)) as [|C]; [eauto|].
    exfalso. apply C. apply in_or_app. right. now left.
  - destruct (in_dec dec x l); [contradiction|]. now apply push_ok.
Qed.
Lemma unionpushlist_loop_ok u m : Is u m -> forall todo done, m = done ++ todo -> forall v l, Is v l ->
  exists v', unionpushlist_loop T eqb (List.length todo) (List.length done) v u = Ok v' /\
    Is v' (fold_left (add_new T dec) todo l).
Proof.
  intros Iu. induction todo as [|y todo IH]; intros done E v l Iv; cbn [List.length unionpushlist_loop fold_left].
  - eauto.
  - rewrite (lget_in u _ _ y Iu). 2:{ rewrite E. now apply nthl_mid. }
    cbn [rbind]. destruct (unionpush_ok v l y Iv) as (v1 & -> & I1). cbn [rbind].
    destruct (IH (done ++ [y])) with (v := v1) (l := add_new T dec l y) as (v2 & E2 & I2); auto.
    { now rewrite <- app_assoc. }
    rewrite app_length, Nat.add_1_r in E2. eauto.
Qed.
Lemma unionpushlist_ok v u l m : Is v l -> Is u m ->
  exists v', unionpushlist T eqb v u = Ok v' /\ Is v' (fold_left (add_new T dec) m l).
Proof.
  intros Iv Iu. unfold unionpushlist. destruct Iu as (r & B & N) eqn:E. rewrite N. clear E.
  apply (unionpushlist_loop_ok u m (ex_intro _ r (conj B N)) m []); auto.
Qed.
Lemma add_new_in l x : In x l -> add_new T dec l x = l.
Proof. unfold add_new. destruct (in_dec dec x l); auto. contradiction. Qed.
Lemma fold_add_in m : forall l, (forall x, In x m -> In x l) -> fold_left (add_new T dec) m l = l.
Proof.
  induction m as [|x m IH]; simpl; intros l H; auto. rewrite add_new_in by auto. apply IH. auto.
Qed.
Lemma unionpushlist_self_ok v l : Is v l ->
  exists v', unionpushlist_self_loop T eqb (n v) 0 v = Ok v' /\ Is v' l.
Proof.
  intros I. assert (G : forall k i v, Is v l -> i + k <= List.length l ->
    exists v', unionpushlist_self_loop T eqb k i v = Ok v' /\ Is v' l).
  { induction k as [|k IH]; intros i w Iw H; cbn [unionpushlist_self_loop]; eauto.
    assert (i <? n w = true) as ->. { destruct Iw as (r & _ & ->). apply Nat.ltb_lt. lia. }
    destruct (nth_error l i) as [x|] eqn:E. 2:{ apply nth_error_None in E. lia. }
    rewrite (lget_in w l i x Iw E). cbn [rbind].
    destruct (unionpush_ok w l x Iw) as (w1 & -> & I1). cbn [rbind].
    rewrite add_new_in in I1 by (eapply nth_error_In; eauto). apply IH; auto. lia. }
  apply G; auto. destruct I as (r & _ & ->). lia.
Qed.

(** dropping *)
Lemma shift_ok : forall b a x v rest, e v = map Some (a ++ x :: b) ++ rest ->
  exists z, shift T (List.length b) (List.length a) v =
    Ok {| e := map Some (a ++ b) ++ z :: rest; n := n v |}.
Proof.
  induction b as [|y b IH]; intros a x v rest B.
  - exists (Some x). simpl in *. rewrite map_app, <- app_assoc in B. rewrite app_nil_r.
    destruct v; simpl in *; now subst.
  - cbn [List.length shift]. unfold lget.
    assert (nth_error (e v) (List.length a + 1) = Some (Some y)) as ->.
    { rewrite B, nth_error_app1. 2:{ rewrite map_length, app_length. simpl. lia. }
      rewrite nth_error_map, nth_error_app2 by lia.
      replace (List.length a + 1 - List.length a) with 1 by lia. reflexivity. }
    cbn [rbind].
    assert (B' : e v = map Some a ++ Some x :: Some y :: map Some b ++ rest).
    { rewrite B, map_app. cbn [map]. rewrite <- app_assoc. reflexivity. }
    rewrite (lset_mid v a (Some x) (Some y :: map Some b ++ rest)); auto. cbn [rbind].
    destruct (IH (a ++ [y]) y {| e := map Some (a ++ [y]) ++ Some y :: map Some b ++ rest; n := n v |} rest) as [z Hz].
    { simpl. rewrite !map_app. cbn [map]. rewrite <- !app_assoc. reflexivity. }
    exists z. rewrite app_length, Nat.add_1_r in Hz. rewrite Hz. simpl. rewrite <- app_assoc. reflexivity.
Qed.
Lemma rem1_app a x b : ~ In x a -> rem1 T dec x (a ++ x :: b) = a ++ b.
Proof.
  induction a as [|y a IH]; simpl; intros H.
  - destruct (dec x x); congruence.
  - destruct (dec y x) as [->|]. { exfalso. auto. } rewrite IH; auto.
Qed.
Lemma rem1_notin x l : ~ In x l -> rem1 T dec x l = l.
Proof. induction l as [|y l IH]; simpl; intros H; auto. destruct (dec y x) as [->|]; [exfalso; auto|]. rewrite IH; auto. Qed.
Lemma drop_ok v l x : Is v l -> exists v', drop T eqb v x = Ok v' /\ Is v' (rem1 T dec x l).
Proof.
  intros I. unfold drop. destruct (search_all v x l I) as ([i|] & -> & H); cbn [rbind].
  - destruct H as (a & b & -> & Na & ->). destruct I as (rest & B & N).
    destruct (shift_ok b a x {| e := e v; n := n v - 1 |} rest B) as [z Hz].
    rewrite app_length in N. simpl in N.
    replace (n v - 1 - List.length a) with (List.length b) by lia. rewrite Hz.
    eexists. split; [reflexivity|]. rewrite rem1_app by auto. exists (z :: rest). simpl. split; auto.
    rewrite app_length. lia.
  - rewrite rem1_notin by auto. eauto.
Qed.
Lemma dropindex_ok v l i : Is v l -> exists v', dropindex T v i = Ok v' /\
  Is v' (if (i <? 0)%Z then l else firstn (Z.to_nat i) l ++ skipn (S (Z.to_nat i)) l).
Proof.
  intros I. unfold dropindex. destruct (Z.ltb_spec i 0); cbn [orb]; eauto.
  pose proof I as (rest & B & N).
  rewrite Z.geb_leb. destruct (Z.leb_spec (Z.of_nat (n v)) i).
  - exists v. split; auto. rewrite firstn_all2, skipn_all2, app_nil_r by lia. auto.
  - set (k := Z.to_nat i) in *. destruct (nth_error l k) as [x|] eqn:E.
    2:{ apply nth_error_None in E. lia. }
    pose proof (nth_error_split l k E) as (a & b & El & La).
    destruct (shift_ok b a x v rest) as [z Hz]. { now rewrite B, El. }
    replace (n v - 1 - k) with (List.length b). 2:{ rewrite N, El, app_length. simpl. lia. }
    rewrite <- La, Hz. cbn [rbind]. eexists. split; [reflexivity|].
    replace (firstn (List.length a) l ++ skipn (S (List.length a)) l) with (a ++ b).
    2:{ rewrite El. rewrite firstn_app, Nat.sub_diag, firstn_all2 by lia. simpl. rewrite app_nil_r. f_equal.
        clear. induction a; simpl; auto. }
    exists (z :: rest). simpl. split; auto. rewrite N, El, !app_length. simpl. lia.
Qed.
Lemma droplastn_ok v l k : Is v l -> Is (droplastn T v k) (firstn (List.length l - Z.to_nat k) l).
Proof.
  intros (rest & B & N). unfold droplastn. destruct (Z.leb_spec k 0).
  - replace (Z.to_nat k) with 0 by lia. rewrite Nat.sub_0_r, firstn_all. exists rest. auto.
  - rewrite Z.geb_leb. destruct (Z.leb_spec (Z.of_nat (n v)) k).
    + replace (List.length l - Z.to_nat k) with 0 by lia. simpl. exists (e v). auto.
    + exists (map Some (skipn (List.length l - Z.to_nat k) l) ++ rest). simpl. split.
      * rewrite B, app_assoc, <- map_app, firstn_skipn. reflexivity.
      * rewrite firstn_length, N. lia.
Qed.
Lemma droplist_loop_ok u m : Is u m -> forall todo done, m = done ++ todo -> forall v l, Is v l ->
  exists v', droplist_loop T eqb (List.length todo) (List.length done) v u = Ok v' /\
    Is v' (fold_left (fun l x => rem1 T dec x l) todo l).
Proof.
  intros Iu. induction todo as [|y todo IH]; intros done E v l Iv; cbn [List.length droplist_loop fold_left].
  - eauto.
  - rewrite (lget_in u _ _ y Iu). 2:{ rewrite E. now apply nthl_mid. }
    cbn [rbind]. destruct (drop_ok v l y Iv) as (v1 & -> & I1). cbn [rbind].
    destruct (IH (done ++ [y])) with (v := v1) (l := rem1 T dec y l) as (v2 & E2 & I2); auto.
    { now rewrite <- app_assoc. }
    rewrite app_length, Nat.add_1_r in E2. eauto.
Qed.
Lemma droplist_ok v u l m : Is v l -> Is u m ->
  exists v', droplist T eqb v u = Ok v' /\ Is v' (fold_left (fun l x => rem1 T dec x l) m l).
Proof.
  intros Iv Iu. unfold droplist. destruct Iu as (r & B & N) eqn:E. rewrite N. clear E.
  apply (droplist_loop_ok u m (ex_intro _ r (conj B N)) m []); auto.
Qed.
Lemma dup_loop_ok v l : Is v l -> forall todo done, l = done ++ todo -> forall u, Is u done ->
  exists u', dup_loop T (List.length todo) (List.length done) v u = Ok u' /\ Is u' l.
Proof.
  intros Iv. induction todo as [|y todo IH]; intros done E u Iu; cbn [List.length dup_loop].
  - rewrite app_nil_r in E. subst. eauto.
  - rewrite (lget_in v _ _ y Iv). 2:{ rewrite E. now apply nthl_mid. }
    cbn [rbind]. destruct (push_ok u done y Iu) as (u1 & -> & I1). cbn [rbind].
    destruct (IH (done ++ [y])) with (u := u1) as (u2 & E2 & I2); auto.
    { now rewrite <- app_assoc. }
    rewrite app_length, Nat.add_1_r in E2. eauto.
Qed.
Lemma duplicate_ok v l : Is v l -> exists u, duplicate T v = Ok u /\ Is u l.
Proof.
  intros Iv. unfold duplicate. destruct Iv as (r & B & N) eqn:E. rewrite N. clear E.
  apply (dup_loop_ok v l (ex_intro _ r (conj B N)) l []); auto. apply Is_alloc.
Qed.
Lemma lin_ok v l x : Is v l -> exists b, lin T eqb v x = Ok b /\ (b = true <-> In x l).
Proof.
  intros I. unfold lin. destruct (search_all v x l I) as ([i|] & -> & H); cbn [rbind].
  - exists true. split; auto. destruct H as (a & b & -> & _). split; auto. intros _. apply in_or_app. right. now left.
  - exists false. split; auto. split; [discriminate|contradiction].
Qed.
Lemma lindex_ok v l x : Is v l -> exists z, lindex T eqb v x = Ok z /\ first_at T (eq x) 0 l z.
Proof.
  intros I. unfold lindex. destruct (search_all v x l I) as ([i|] & -> & H); cbn [rbind].
  - eexists. split; [reflexivity|]. destruct H as (a & b & -> & Na & ->). right.
    exists (List.length a), x. repeat split; auto; try lia.
    + now apply nthl_mid.
    + intros j y J Hj <-. rewrite nth_error_app1 in Hj by lia. apply Na. eapply nth_error_In; eauto.
  - eexists. split; [reflexivity|]. left. split; auto. intros j y _ Hj <-. apply H. eapply nth_error_In; eauto.
Qed.
Lemma search_prop_ok v l p : Is v l -> forall k i, i + k = List.length l ->
  exists z, search_prop T k i p v = Ok z /\ first_at T (fun x => p x = true) i l z.
Proof.
  intros I. induction k as [|k IH]; intros i H; cbn [search_prop].
  - eexists. split; [reflexivity|]. left. split; auto. intros j x J Hj. 
    assert (j < List.length l) by (apply nth_error_Some; congruence). lia.
  - destruct (nth_error l i) as [x|] eqn:E. 2:{ apply nth_error_None in E. lia. }
    rewrite (lget_in v l i x I E). cbn [rbind]. destruct (p x) eqn:Px.
    + eexists. split; [reflexivity|]. right. exists i, x. repeat split; auto. intros; lia.
    + destruct (IH (S i)) as (z & -> & F); [lia|]. eexists. split; [reflexivity|].
      destruct F as [(-> & F)|(k0 & y & -> & K & Hk & Py & F)].
      * left. split; auto. intros j y J Hj. destruct (Nat.eq_dec j i) as [->|]; [congruence|]. apply (F j y); auto. lia.
      * right. exists k0, y. repeat split; auto; try lia. intros j w J Hj.
        destruct (Nat.eq_dec j i) as [->|]; [congruence|]. apply (F j w); auto. lia.
Qed.
Lemma index_prop_ok v l i0 p : Is v l ->
  exists z, index_prop T v i0 p = Ok z /\ first_at T (fun x => p x = true) (Z.to_nat i0) l z.
Proof.
  intros I. unfold index_prop.
  assert ((if (i0 <? 0)%Z then 0 else Z.to_nat i0) = Z.to_nat i0) as ->.
  { destruct (Z.ltb_spec i0 0); auto. lia. }
  assert (n v = List.length l) as -> by (destruct I as (r & _ & ?); auto).
  destruct (Nat.le_gt_cases (Z.to_nat i0) (List.length l)).
  - apply search_prop_ok; auto. lia.
  - replace (List.length l - Z.to_nat i0) with 0 by lia. simpl. eexists. split; [reflexivity|].
    left. split; auto. intros j x J Hj. assert (j < List.length l) by (apply nth_error_Some; congruence). lia.
Qed.

(** * histories *)
Definition R (h : heap T) (g : lists T) : Prop := Forall2 Is h g.
Lemma R_nth h g v l : R h g -> nth_error g v = Some l -> exists a, nth_error h v = Some a /\ Is a l.
Proof.
  intros H. revert v. induction H as [|a b h g Hab H IH]; intros [|v] E; simpl in *; try discriminate.
  - injection E as <-. eauto.
  - auto.
Qed.
Lemma R_upd h g v a l : R h g -> Is a l -> R (upd h v a) (upd g v l).
Proof.
  intros H Ia. revert v. induction H as [|x y h g Hxy H IH]; intros [|v]; simpl; constructor; auto. apply IH.
Qed.
Lemma R_app h g a l : R h g -> Is a l -> R (h ++ [a]) (g ++ [l]).
Proof. intros. apply Forall2_app; auto. Qed.

Lemma step_ok h g o g' : R h g -> no_self T o -> sstep T dec g o = Some g' ->
  exists h', lstep T eqb h o = Ok h' /\ R h' g'.
Proof.
  intros HR NS H. destruct o; simpl in H, NS |- *; unfold hget.
  - injection H as <-. eexists. split; [reflexivity|]. apply R_app; auto. apply Is_alloc.
  - destruct (nth_error g v) as [l|] eqn:E; try discriminate. injection H as <-.
    destruct (R_nth _ _ _ _ HR E) as (a & -> & Ia). cbn [rbind]. eexists. split; [reflexivity|].
    apply R_upd; auto. apply Is_alloc.
  - destruct (nth_error g v) as [l|] eqn:E; try discriminate. injection H as <-.
    destruct (R_nth _ _ _ _ HR E) as (a & -> & Ia). cbn [rbind].
    destruct (push_ok a l x Ia) as (a' & -> & I'). eexists. split; [reflexivity|]. apply R_upd; auto.
  - destruct (nth_error g u) as [m|] eqn:Eu; try discriminate.
    destruct (nth_error g v) as [l|] eqn:E; try discriminate. injection H as <-.
    destruct (R_nth _ _ _ _ HR E) as (a & -> & Ia). cbn [rbind].
    destruct (R_nth _ _ _ _ HR Eu) as (b & -> & Ib). cbn [rbind].
    replace (v =? u) with false by (symmetry; now apply Nat.eqb_neq).
    destruct (pushlist_ok a b l m Ia Ib) as (a' & -> & I'). eexists. split; [reflexivity|]. apply R_upd; auto.
  - destruct (nth_error g v) as [l|] eqn:E; try discriminate. injection H as <-.
    destruct (R_nth _ _ _ _ HR E) as (a & -> & Ia). cbn [rbind].
    destruct (unionpush_ok a l x Ia) as (a' & -> & I'). eexists. split; [reflexivity|]. apply R_upd; auto.
  - destruct (nth_error g u) as [m|] eqn:Eu; try discriminate.
    destruct (nth_error g v) as [l|] eqn:E; try discriminate. injection H as <-.
    destruct (R_nth _ _ _ _ HR E) as (a & Ha & Ia). rewrite Ha. cbn [rbind].
    destruct (R_nth _ _ _ _ HR Eu) as (b & Hb & Ib). rewrite Hb. cbn [rbind].
    destruct (Nat.eqb_spec v u) as [<-|].
    + assert (m = l) as -> by congruence.
      destruct (unionpushlist_self_ok a l Ia) as (a' & -> & I'). eexists. split; [reflexivity|].
      rewrite fold_add_in by auto. apply R_upd; auto.
    + destruct (unionpushlist_ok a b l m Ia Ib) as (a' & -> & I'). eexists. split; [reflexivity|]. apply R_upd; auto.
  - destruct (nth_error g v) as [l|] eqn:E; try discriminate. injection H as <-.
    destruct (R_nth _ _ _ _ HR E) as (a & -> & Ia). cbn [rbind].
    destruct (dropindex_ok a l i Ia) as (a' & -> & I'). eexists. split; [reflexivity|]. apply R_upd; auto.
  - destruct (nth_error g v) as [l|] eqn:E; try discriminate. injection H as <-.
    destruct (R_nth _ _ _ _ HR E) as (a & -> & Ia). cbn [rbind].
    destruct (drop_ok a l x Ia) as (a' & -> & I'). eexists. split; [reflexivity|]. apply R_upd; auto.
  - destruct (nth_error g v) as [l|] eqn:E; try discriminate. injection H as <-.
    destruct (R_nth _ _ _ _ HR E) as (a & -> & Ia). cbn [rbind].
    eexists. split; [reflexivity|]. apply R_upd; auto. now apply droplastn_ok.
  - destruct (nth_error g u) as [m|] eqn:Eu; try discriminate.
    destruct (nth_error g v) as [l|] eqn:E; try discriminate. injection H as <-.
    destruct (R_nth _ _ _ _ HR E) as (a & -> & Ia). cbn [rbind].
    destruct (R_nth _ _ _ _ HR Eu) as (b & -> & Ib). cbn [rbind].
    replace (v =? u) with false by (symmetry; now apply Nat.eqb_neq).
    destruct (droplist_ok a b l m Ia Ib) as (a' & -> & I'). eexists. split; [reflexivity|]. apply R_upd; auto.
  - destruct (nth_error g v) as [l|] eqn:E; try discriminate. injection H as <-.
    destruct (R_nth _ _ _ _ HR E) as (a & -> & Ia). cbn [rbind].
    destruct (duplicate_ok a l Ia) as (a' & -> & I'). eexists. split; [reflexivity|]. apply R_app; auto.
Qed.
Lemma run_ok os : forall h g g', R h g -> Forall (no_self T) os -> srun T dec g os = Some g' ->
  exists h', lrun T eqb h os = Ok h' /\ R h' g'.
Proof.
  induction os as [|o os IH]; intros h g g' HR NS H; simpl in *.
  - injection H as <-. eauto.
  - inversion NS; subst. destruct (sstep T dec g o) as [g1|] eqn:E; try discriminate.
    destruct (step_ok _ _ _ _ HR H2 E) as (h1 & -> & R1). cbn [rbind]. eauto.
Qed.
Lemma query_ok h g q : R h g -> good_answer T g q (lquery T eqb h q).
Proof.
  intros HR. destruct q; simpl; intros l; unfold hget.
  - intros E. destruct (R_nth _ _ _ _ HR E) as (a & -> & Ia). cbn [rbind].
    destruct (lin_ok a l x Ia) as (b & -> & H). exists b. auto.
  - intros E. destruct (R_nth _ _ _ _ HR E) as (a & -> & Ia). cbn [rbind].
    destruct (lindex_ok a l x Ia) as (b & -> & H). exists b. auto.
  - intros E. destruct (R_nth _ _ _ _ HR E) as (a & -> & (r & _ & N)). cbn [rbind]. now rewrite N.
  - intros x E Ex. destruct (R_nth _ _ _ _ HR E) as (a & -> & Ia). cbn [rbind].
    assert (i <? n a = true) as ->.
    { destruct Ia as (r & _ & ->). apply Nat.ltb_lt. apply nth_error_Some. congruence. }
    rewrite (lget_in a l i x Ia Ex). reflexivity.
  - intros E. destruct (R_nth _ _ _ _ HR E) as (a & -> & Ia). cbn [rbind].
    destruct (index_prop_ok a l i0 p Ia) as (b & -> & H). exists b. auto.
Qed.
Lemma fold_add_nodup m : forall l, NoDup l -> NoDup (fold_left (add_new T dec) m l).
Proof.
  induction m as [|x m IH]; simpl; intros l H; auto. apply IH. unfold add_new.
  destruct (in_dec dec x l); auto. 
  rewrite <- (rev_involutive (l ++ [x])). apply NoDup_rev. rewrite rev_app_distr. simpl. constructor.
  - rewrite <- in_rev. auto.
  - now apply NoDup_rev.
Qed.
End P.
