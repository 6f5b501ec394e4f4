(** Proofs for box-face lists (C12). *)
From Verif Require Import Base Bfaces_model Bfaces_spec.

Definition fok (b i : nat) (f : face) (x : aface) : Prop :=
  fb f = b /\ ffi f = i /\ ff f = a_f x /\ fob f = a_ob x /\ fofi f = a_ofi x /\ fpts f = a_pts x.
Record Binv (w : bworld) (s : bst) : Prop := {
  B_len : List.length (arrs w) = List.length s;
  B_l : forall b a l, nth_error (arrs w) b = Some a -> nth_error s b = Some l -> List.length a = List.length l;
  B_ok : forall b a l i p x, nth_error (arrs w) b = Some a -> nth_error s b = Some l ->
     nth_error a i = Some p -> nth_error l i = Some x -> exists f, nth_error (fheap w) p = Some (Some f) /\ fok b i f x;
  B_inj : forall b a i b' a' i' p, nth_error (arrs w) b = Some a -> nth_error (arrs w) b' = Some a' ->
     nth_error a i = Some p -> nth_error a' i' = Some p -> b = b' /\ i = i';
  B_own : forall p f, nth_error (fheap w) p = Some (Some f) -> exists b a, nth_error (arrs w) b = Some a /\ In p a }.

Lemma nth_upd {A} (l : list A) i j x : nth_error (upd l i x) j =
  if (i =? j) then match nth_error l j with Some _ => Some x | None => None end else nth_error l j.
Proof.
  destruct (Nat.eqb_spec i j) as [->|NE].
  - destruct (nth_error l j) eqn:E.
    + apply nth_error_upd_eq. apply nth_error_Some. congruence.
    + apply nth_error_None. rewrite upd_length. now apply nth_error_None.
  - now apply nth_error_upd_ne.
Qed.
Lemma upd_same {A} (l : list A) i x : nth_error l i = Some x -> upd l i x = l.
Proof. revert i. induction l as [|y l IH]; intros [|i] E; simpl in *; try discriminate; f_equal; auto. congruence. Qed.
Lemma upd_upd {A} (l : list A) i x y : upd (upd l i x) i y = upd l i y.
Proof. revert i. induction l as [|z l IH]; intros [|i]; simpl; f_equal; auto. Qed.
Lemma nth_lt {A} (l : list A) i x : nth_error l i = Some x -> i < List.length l.
Proof. intros E. apply nth_error_Some. congruence. Qed.
Lemma nth_app {A} (l m : list A) j : nth_error (l ++ m) (List.length l + j) = nth_error m j.
Proof. rewrite nth_error_app2 by lia. f_equal. lia. Qed.
Lemma arr_box w s b l : Binv w s -> nth_error s b = Some l -> exists a, nth_error (arrs w) b = Some a /\ List.length a = List.length l.
Proof.
  intros I E. destruct (nth_error (arrs w) b) as [a|] eqn:Ea. { exists a. split; auto. eapply B_l; eauto. }
  apply nth_error_None in Ea. rewrite (B_len _ _ I) in Ea. apply nth_lt in E. lia.
Qed.
Lemma arr_nd w s b a : Binv w s -> nth_error (arrs w) b = Some a -> NoDup a.
Proof.
  intros I E. apply NoDup_nth_error. intros i j Hi Hij. destruct (nth_error a i) as [p|] eqn:Ep.
  - destruct (B_inj _ _ I _ _ _ _ _ _ _ E E Ep (eq_sym Hij)) as [_ ->]. reflexivity.
  - apply nth_error_None in Ep. lia.
Qed.
Lemma arr_live w s b l a p : Binv w s -> nth_error s b = Some l -> nth_error (arrs w) b = Some a -> In p a -> exists f, nth_error (fheap w) p = Some (Some f).
Proof.
  intros I E Ea Hp. apply In_nth_error in Hp. destruct Hp as (i & Ei).
  destruct (nth_error l i) as [x|] eqn:Ex.
  - destruct (B_ok _ _ I _ _ _ _ _ _ Ea E Ei Ex) as (f & Ef & _). eauto.
  - apply nth_error_None in Ex. rewrite <- (B_l _ _ I _ _ _ Ea E) in Ex. apply nth_lt in Ei. lia.
Qed.
Lemma upd_box w s b l a w' a' l' : Binv w s -> nth_error s b = Some l -> nth_error (arrs w) b = Some a ->
  arrs w' = upd (arrs w) b a' -> List.length a' = List.length l' -> NoDup a' ->
  (forall p, In p a' -> In p a \/ List.length (fheap w) <= p) ->
  (forall i p x, nth_error a' i = Some p -> nth_error l' i = Some x -> exists f, nth_error (fheap w') p = Some (Some f) /\ fok b i f x) ->
  (forall p, ~ In p a -> p < List.length (fheap w) -> nth_error (fheap w') p = nth_error (fheap w) p) ->
  (forall p f, nth_error (fheap w') p = Some (Some f) -> In p a' \/ (p < List.length (fheap w) /\ ~ In p a)) ->
  Binv w' (upd s b l').
Proof.
  intros I E Ea A L N F M H O.
  assert (LV : forall b1 a1 p, nth_error (arrs w) b1 = Some a1 -> In p a1 -> p < List.length (fheap w)).
  { intros b1 a1 p E1 Hp. destruct (nth_error s b1) as [l1|] eqn:El. 2:{ apply nth_error_None in El. rewrite <- (B_len _ _ I) in El. apply nth_lt in E1. lia. }
    destruct (arr_live _ _ _ _ _ _ I El E1 Hp) as (f & Ef). eapply nth_lt; eauto. }
  assert (DJ : forall b1 a1 p, b1 <> b -> nth_error (arrs w) b1 = Some a1 -> In p a1 -> ~ In p a).
  { intros b1 a1 p NE E1 H1 H2. apply In_nth_error in H1, H2. destruct H1 as (i1 & H1), H2 as (i2 & H2).
    destruct (B_inj _ _ I _ _ _ _ _ _ _ E1 Ea H1 H2). contradiction. }
  constructor; rewrite ?A.
  - rewrite !upd_length. apply (B_len _ _ I).
  - intros b1 a1 l1. rewrite !nth_upd. destruct (Nat.eqb_spec b b1) as [<-|]; [|apply (B_l _ _ I)].
    rewrite Ea, E. intros Q1 Q2. injection Q1 as <-. injection Q2 as <-. exact L.
  - intros b1 a1 l1 i p x. rewrite !nth_upd. destruct (Nat.eqb_spec b b1) as [<-|NE].
    + rewrite Ea, E. intros Q1 Q2. injection Q1 as <-. injection Q2 as <-. apply M.
    + intros Q1 Q2 Q3 Q4. destruct (B_ok _ _ I _ _ _ _ _ _ Q1 Q2 Q3 Q4) as (f & Ef & Hf). exists f. split; auto.
      rewrite H; auto. { eapply DJ; eauto. eapply nth_error_In; eauto. } eapply LV; eauto. eapply nth_error_In; eauto.
  - assert (X : forall b1 a1 i1 i p, b <> b1 -> nth_error (arrs w) b1 = Some a1 -> nth_error a' i = Some p -> nth_error a1 i1 = Some p -> False).
    { intros b1 a1 i1 i p NE Q1 Q2 Q3. apply nth_error_In in Q2, Q3. destruct (F p Q2) as [Q|Q].
      - eapply DJ; eauto.
      - specialize (LV _ _ _ Q1 Q3). lia. }
    intros b1 a1 i1 b2 a2 i2 p. rewrite !nth_upd. destruct (Nat.eqb_spec b b1) as [<-|N1], (Nat.eqb_spec b b2) as [<-|N2]; rewrite ?Ea.
    + intros Q1 Q2. injection Q1 as <-. injection Q2 as <-. intros Q1 Q2. split; auto.
      apply (proj1 (NoDup_nth_error a') N); [eapply nth_lt; eauto|congruence].
    + intros Q1 Q2. injection Q1 as <-. intros Q1 Q3. exfalso. eapply X; eauto.
    + intros Q1 Q2. injection Q2 as <-. intros Q3 Q2. exfalso. eapply X; eauto.
    + apply (B_inj _ _ I).
  - intros p f Ep. destruct (O p f Ep) as [Hp|[Hp Hn]].
    + exists b, a'. split; auto. rewrite nth_error_upd_eq; auto. eapply nth_lt; eauto.
    + rewrite H in Ep by auto. destruct (B_own _ _ I p f Ep) as (b1 & a1 & E1 & Hin). exists b1, a1. split; auto.
      rewrite nth_upd. destruct (Nat.eqb_spec b b1) as [Eb|]; auto. subst b1. assert (a1 = a) by congruence. subst a1. contradiction.
Qed.
(** changing one face in place *)
Lemma put_ok w s b l a i p x f' x' : Binv w s -> nth_error s b = Some l -> nth_error (arrs w) b = Some a ->
  nth_error a i = Some p -> nth_error l i = Some x -> fok b i f' x' -> Binv (fput w p f') (upd s b (upd l i x')).
Proof.
  intros I E Ea Ep Ex Hf.
  assert (LP : p < List.length (fheap w)).
  { destruct (B_ok _ _ I _ _ _ _ _ _ Ea E Ep Ex) as (f & Ef & _). eapply nth_lt; eauto. }
  apply (upd_box w s b l a (fput w p f') a (upd l i x')); auto; unfold fput; cbn [arrs fheap].
  - now rewrite upd_same.
  - rewrite upd_length. eapply B_l; eauto.
  - eapply arr_nd; eauto.
  - intros j q y Eq. rewrite !nth_upd. intros Q. destruct (Nat.eqb_spec i j) as [<-|NE].
    + rewrite Ex in Q. injection Q as <-. assert (q = p) as -> by congruence. rewrite Nat.eqb_refl.
      destruct (nth_error (fheap w) p) eqn:Eh. { eauto. } apply nth_error_None in Eh. lia.
    + destruct (Nat.eqb_spec p q) as [<-|]; [|eapply B_ok; eauto].
      destruct (B_inj _ _ I _ _ _ _ _ _ _ Ea Ea Ep Eq). contradiction.
  - intros q Hq Lq. apply nth_error_upd_ne. intros <-. apply Hq. eapply nth_error_In; eauto.
  - intros q f. rewrite nth_upd. destruct (Nat.eqb_spec p q) as [<-|].
    + intros _. left. eapply nth_error_In; eauto.
    + intros Eq. destruct (in_dec Nat.eq_dec q a); auto. right. split; auto. eapply nth_lt; eauto.
Qed.
Lemma add_ok w s b l f : Binv w s -> nth_error s b = Some l -> exists w', add_empty_bface b f w = Ok (w', List.length l) /\ Binv w' (upd s b (l ++ [newf f])).
Proof.
  intros I E. destruct (arr_box _ _ _ _ I E) as (a & Ea & La). unfold add_empty_bface, arr. rewrite Ea. cbn [rbind]. rewrite La.
  eexists. split; [reflexivity|].
  assert (LV : forall p, In p a -> p < List.length (fheap w)).
  { intros p Hp. destruct (arr_live _ _ _ _ _ _ I E Ea Hp) as (x & Ex). eapply nth_lt; eauto. }
  apply (upd_box w s b l a _ (a ++ [List.length (fheap w)]) (l ++ [newf f]) I E Ea); cbn [arrs fheap]; [reflexivity|rewrite !app_length; simpl; lia| | | | |].
  - clear - I Ea LV. pose proof (arr_nd _ _ _ _ I Ea) as N. clear I Ea. induction a as [|y a IH]; simpl. { constructor; [intros []|constructor]. }
    inversion N; subst. constructor. 2:{ apply IH; auto. intros. apply LV. now right. } rewrite in_app_iff. intros [C|[C|[]]]; auto. specialize (LV y (or_introl eq_refl)). lia.
  - intros p Hp. apply in_app_iff in Hp. destruct Hp as [|[<-|[]]]; auto.
  - intros i p x Ep Ex. destruct (Nat.lt_ge_cases i (List.length l)) as [Hi|Hi].
    + rewrite nth_error_app1 in Ep, Ex by lia. destruct (B_ok _ _ I _ _ _ _ _ _ Ea E Ep Ex) as (y & Ey & Hy). exists y. split; auto.
      rewrite nth_error_app1; auto. eapply nth_lt; eauto.
    + rewrite nth_error_app2 in Ep, Ex by lia. rewrite La in Ep. destruct (i - List.length l) as [|k] eqn:Ek; simpl in Ep, Ex. 2:{ destruct k; discriminate. }
      injection Ep as <-. injection Ex as <-. replace i with (List.length l) by lia. eexists. split.
      { rewrite nth_error_app2, Nat.sub_diag by lia. reflexivity. } unfold fok. simpl. tauto.
  - intros p _ Hp. now rewrite nth_error_app1.
  - intros p x. destruct (Nat.lt_ge_cases p (List.length (fheap w))) as [Hp|Hp].
    + intros _. destruct (in_dec Nat.eq_dec p a); auto. left. apply in_app_iff. auto.
    + intros Q. left. apply in_app_iff. right. left. rewrite nth_error_app2 in Q by lia. destruct (p - List.length (fheap w)) as [|k] eqn:Ek; [lia|]. destruct k; discriminate.
Qed.
Lemma shift_ok post : forall w pre x, NoDup post -> (forall p, In p post -> exists f, nth_error (fheap w) p = Some (Some f)) ->
  exists z w', shift_loop (List.length post) (List.length pre) (pre ++ x :: post) w = Ok (pre ++ post ++ [z], w') /\
    arrs w' = arrs w /\ List.length (fheap w') = List.length (fheap w) /\
    (forall q, ~ In q post -> nth_error (fheap w') q = nth_error (fheap w) q) /\
    (forall j q f, nth_error post j = Some q -> nth_error (fheap w) q = Some (Some f) -> nth_error (fheap w') q = Some (Some (set_fi f (List.length pre + j)))).
Proof.
  induction post as [|p post IH]; intros w pre x N L; cbn [List.length shift_loop].
  - exists x, w. simpl. repeat split; auto. intros j q f E. destruct j; discriminate.
  - destruct (L p (or_introl eq_refl)) as (f & Ef). unfold at_. rewrite nth_app. cbn [nth_error rbind]. unfold fget. rewrite Ef. cbn [rbind].
    assert (U : upd (pre ++ x :: p :: post) (List.length pre) p = (pre ++ [p]) ++ p :: post).
    { clear. induction pre as [|y pre IH]; simpl; [reflexivity|]. now rewrite IH. }
    rewrite U. replace (List.length pre + 1) with (List.length (pre ++ [p])) by (rewrite app_length; reflexivity).
    inversion N as [|? ? N1 N2]; subst.
    assert (Hh : forall q, q <> p -> nth_error (fheap (fput w p (set_fi f (List.length pre)))) q = nth_error (fheap w) q).
    { intros q NE. unfold fput. cbn [fheap]. apply nth_error_upd_ne. auto. }
    destruct (IH (fput w p (set_fi f (List.length pre))) (pre ++ [p]) p N2) as (z & w' & R & A & Ln & H1 & H2).
    { intros q Hq. destruct (L q (or_intror Hq)) as (g & Eg). exists g. rewrite Hh; auto. intros ->. contradiction. }
    exists z, w'. rewrite R. split. { now rewrite <- app_assoc. } split; auto. split. { rewrite Ln. unfold fput. cbn [fheap]. apply upd_length. } split.
    + intros q Hq. rewrite H1 by (intros C; apply Hq; now right). apply Hh. intros ->. apply Hq. now left.
    + intros [|j] q g Eq Eg; simpl in Eq.
      * injection Eq as <-. rewrite H1 by auto. unfold fput. cbn [fheap]. rewrite nth_error_upd_eq by (eapply nth_lt; eauto).
        rewrite Nat.add_0_r. congruence.
      * rewrite (H2 j q g); auto.
        -- rewrite app_length. simpl. do 3 f_equal. lia.
        -- rewrite Hh; auto. intros ->. apply N1. eapply nth_error_In; eauto.
Qed.
Lemma split_at {A} (l : list A) i : i < List.length l -> exists pre x post, l = pre ++ x :: post /\ List.length pre = i.
Proof.
  intros H. destruct (nth_error l i) as [x|] eqn:E. 2:{ apply nth_error_None in E. lia. }
  destruct (nth_error_split _ _ E) as (pre & post & -> & <-). eauto.
Qed.
Lemma without_mid {A} (pre : list A) x post : without (List.length pre) (pre ++ x :: post) = pre ++ post.
Proof. unfold without. f_equal. { rewrite firstn_app, firstn_all, Nat.sub_diag. simpl. apply app_nil_r. }
  induction pre; simpl; auto. Qed.
Lemma rm_ok w s b l i : Binv w s -> nth_error s b = Some l -> i < List.length l ->
  exists w', remove_bface b (Z.of_nat i) w = Ok (w', 1) /\ Binv w' (upd s b (without i l)).
Proof.
  intros I E Hi. destruct (arr_box _ _ _ _ I E) as (a & Ea & La). unfold remove_bface, arr. rewrite Ea. cbn [rbind].
  replace ((Z.of_nat i <? 0) || (Z.of_nat (List.length a) <=? Z.of_nat i))%Z with false by lia.
  rewrite Nat2Z.id. destruct (split_at a i) as (pre & p & post & -> & Lp); [lia|]. destruct (split_at l i Hi) as (lp & x & lq & -> & Lq).
  rewrite <- Lq, without_mid. rewrite !app_length in La. simpl in La.
  assert (Lpost : List.length post = List.length lq) by lia.
  assert (Lpl : List.length lp = List.length pre) by lia. rewrite Lpl. unfold at_. rewrite (nth_error_app2 pre (p :: post)), Nat.sub_diag by lia. cbn [nth_error rbind].
  pose proof (arr_nd _ _ _ _ I Ea) as N. pose proof (fun q => arr_live _ _ _ _ _ q I E Ea) as LV.
  destruct (LV p) as (f & Ef). { apply in_or_app. right. now left. }
  unfold free_bface, fget. rewrite Ef. cbn [rbind].
  assert (Np : ~ In p pre /\ ~ In p post /\ NoDup post /\ NoDup (pre ++ post)).
  { apply NoDup_remove in N. destruct N as [N1 N2]. rewrite in_app_iff in N2. repeat split; auto. clear - N1. induction pre; simpl in *; auto. inversion N1; auto. }
  destruct Np as (P1 & P2 & P3 & P4).
  assert (X : forall q, In q (pre ++ post) -> ~ In q post \/ In q post) by (intros; destruct (in_dec Nat.eq_dec q post); auto).
  destruct (shift_ok post {| fheap := upd (fheap w) p None; arrs := arrs w |} pre p P3) as (z & w2 & R & A & Ln & H1 & H2).
  { intros q Hq. cbn [fheap]. rewrite nth_error_upd_ne. { apply LV. apply in_or_app. right. now right. } intros ->. contradiction. }
  replace (List.length (pre ++ p :: post) - 1 - List.length pre) with (List.length post) by (rewrite app_length; simpl; lia).
  rewrite R. cbn [rbind]. eexists. split; [reflexivity|].
  replace (firstn (List.length (pre ++ p :: post) - 1) (pre ++ post ++ [z])) with (pre ++ post).
  2:{ rewrite app_assoc. rewrite firstn_app. replace (List.length (pre ++ p :: post) - 1) with (List.length (pre ++ post)) by (rewrite !app_length; simpl; lia).
      rewrite firstn_all, Nat.sub_diag. simpl. now rewrite app_nil_r. }
  cbn [fheap arrs] in *.
  eapply (upd_box w s b _ _ _ (pre ++ post) (lp ++ lq) I E Ea); unfold aset; cbn [arrs fheap]; auto.
  - now rewrite A.
  - rewrite !app_length. lia.
  - intros q Hq. left. apply in_app_iff in Hq. apply in_or_app. destruct Hq; auto. right. now right.
  - intros j q y Eq Ey. destruct (Nat.lt_ge_cases j (List.length pre)) as [Hj|Hj].
    + rewrite nth_error_app1 in Eq, Ey by lia.
      assert (~ In q post). { intros C. apply nth_error_In in Eq. clear - P4 Eq C. induction pre as [|y pre IH]; simpl in *; [contradiction|]. inversion P4; subst. destruct Eq as [->|]; [|now apply IH]. apply H1. apply in_or_app. now right. }
      rewrite H1 by auto. rewrite nth_error_upd_ne. 2:{ intros ->. apply P1. eapply nth_error_In; eauto. }
      eapply (B_ok _ _ I b _ _ j q y Ea E); rewrite nth_error_app1 by lia; auto.
    + replace j with (List.length pre + (j - List.length pre)) in Eq by lia. rewrite nth_app in Eq.
      replace j with (List.length lp + (j - List.length pre)) in Ey by lia. rewrite nth_app in Ey.
      set (k := j - List.length pre) in *.
      destruct (B_ok _ _ I b _ _ (List.length pre + S k) q y Ea E) as (g & Eg & Hg).
      { rewrite nth_app. exact Eq. } { rewrite Lp, <- Lq, nth_app. exact Ey. }
      exists (set_fi g j). split.
      { replace j with (List.length pre + k) by lia. apply (H2 k q g Eq). rewrite nth_error_upd_ne; auto. intros ->. apply P2. eapply nth_error_In; eauto. }
      unfold fok, set_fi in *. simpl. intuition congruence.
  - intros q Hq Lq'. rewrite H1. 2:{ intros C. apply Hq. apply in_or_app. right. now right. } apply nth_error_upd_ne. intros ->. apply Hq. apply in_or_app. right. now left.
  - intros q g Eq. destruct (in_dec Nat.eq_dec q (pre ++ p :: post)) as [Hin|Hin].
    + left. apply in_app_iff in Hin. apply in_or_app. destruct Hin as [|[->|]]; auto. exfalso. rewrite H1 in Eq by auto. rewrite nth_error_upd_eq in Eq by (eapply nth_lt; eauto). discriminate.
    + right. split; auto. rewrite upd_length in Ln. rewrite <- Ln. eapply nth_lt; eauto.
Qed.
Lemma upd_in {A} (s : list A) b x y : nth_error s b = Some y -> nth_error (upd s b x) b = Some x.
Proof. intros E. apply nth_error_upd_eq. eapply nth_lt; eauto. Qed.
Lemma rm_null_ok fuel : forall w s b pre rest n, Binv w s -> nth_error s b = Some (pre ++ rest) -> List.length rest < fuel ->
  exists w', rm_null fuel b (List.length pre) n w = Ok (w', n + List.length (filter (fun x => negb (haspts x)) rest)) /\
    Binv w' (upd s b (pre ++ filter haspts rest)).
Proof.
  induction fuel as [|fuel IH]; intros w s b pre rest n I E F; [lia|]. cbn [rm_null].
  destruct (arr_box _ _ _ _ I E) as (a & Ea & La). unfold arr. rewrite Ea. cbn [rbind]. rewrite La, app_length.
  destruct rest as [|x rest]; simpl List.length in *.
  - replace (List.length pre <? List.length pre + 0) with false by (symmetry; apply Nat.ltb_ge; lia). exists w. simpl. rewrite Nat.add_0_r, upd_same; auto.
  - replace (List.length pre <? List.length pre + S (List.length rest)) with true by (symmetry; apply Nat.ltb_lt; lia).
    unfold at_. destruct (nth_error a (List.length pre)) as [p|] eqn:Ep. 2:{ apply nth_error_None in Ep. rewrite app_length in La. simpl in La. lia. }
    cbn [rbind]. assert (Ex : nth_error (pre ++ x :: rest) (List.length pre) = Some x) by (rewrite nth_error_app2, Nat.sub_diag by lia; reflexivity).
    destruct (B_ok _ _ I _ _ _ _ _ _ Ea E Ep Ex) as (f & Ef & Hf). unfold fget. rewrite Ef. cbn [rbind].
    destruct Hf as (_ & _ & _ & _ & _ & Hp). rewrite Hp. cbn [filter]. destruct (a_pts x) as [l|] eqn:Hx;
    [assert (Hh : haspts x = true) by (unfold haspts; now rewrite Hx)|assert (Hh : haspts x = false) by (unfold haspts; now rewrite Hx)]; rewrite Hh; cbn [negb].
    + destruct (IH w s b (pre ++ [x]) rest n I) as (w' & R & I'). { rewrite E. now rewrite <- app_assoc. } { lia. }
      rewrite app_length in R. simpl in R. rewrite <- app_assoc in I'. eauto.
    + destruct (rm_ok w s b _ (List.length pre) I E) as (w1 & R1 & I1). { rewrite app_length. simpl. lia. }
      rewrite R1. cbn [rbind]. rewrite without_mid in I1.
      destruct (IH w1 _ b pre rest (n + 1) I1) as (w' & R & I'). { eapply upd_in; eauto. } { lia. }
      replace (List.length pre + 1 - 1) with (List.length pre) by lia. rewrite R. exists w'. rewrite upd_upd in I'. split; auto. simpl. do 2 f_equal. lia.
Qed.
Lemma free_list_ok l : forall w, NoDup l -> (forall p, In p l -> exists f, nth_error (fheap w) p = Some (Some f)) ->
  exists w', free_list l w = Ok w' /\ arrs w' = arrs w /\ List.length (fheap w') = List.length (fheap w) /\
   forall q, nth_error (fheap w') q = if in_dec Nat.eq_dec q l then Some None else nth_error (fheap w) q.
Proof.
  induction l as [|p l IH]; intros w N L; cbn [free_list].
  - exists w. repeat split; auto.
  - inversion N; subst. destruct (L p (or_introl eq_refl)) as (f & Ef). unfold free_bface, fget. rewrite Ef. cbn [rbind].
    destruct (IH {| fheap := upd (fheap w) p None; arrs := arrs w |} H2) as (w' & R & A & Ln & Q).
    { intros q Hq. cbn [fheap]. rewrite nth_error_upd_ne. { apply L. now right. } intros ->. contradiction. }
    exists w'. rewrite R. cbn [arrs fheap] in *. rewrite upd_length in Ln. repeat split; auto. intros q. rewrite Q. rewrite nth_upd.
    destruct (in_dec Nat.eq_dec q l), (in_dec Nat.eq_dec q (p :: l)) as [i2|i2]; auto.
    + exfalso. apply i2. now right.
    + destruct i2 as [->|]; [|contradiction]. rewrite Nat.eqb_refl, Ef. reflexivity.
    + destruct (Nat.eqb_spec p q) as [<-|]; auto. exfalso. apply i2. now left.
Qed.
Lemma mod_at_upd {A} (l : list A) i x g : nth_error l i = Some x -> mod_at i g l = upd l i (g x).
Proof.
  unfold mod_at. revert i. induction l as [|y l IH]; intros [|i] E; simpl in *; try discriminate.
  - injection E as ->. reflexivity.
  - f_equal. auto.
Qed.
Lemma upd_last {A} (l : list A) x y : upd (l ++ [x]) (List.length l) y = l ++ [y].
Proof. induction l; simpl; congruence. Qed.
Lemma bstep_ok w s o l l' r : Binv w s -> nth_error s (obox o) = Some l ->
  match o with SetOther _ fi _ _ => fi < List.length l | _ => True end -> bspec o l = (l', r) ->
  exists w', bstep o w = Ok (w', r) /\ Binv w' (upd s (obox o) l').
Proof.
  intros I E Hv Hs. destruct o as [b f|b fi ijk f|b fi|b|b|b fi ob ofi]; cbn [obox bstep bspec] in *.
  - injection Hs as <- <-. now apply add_ok.
  - destruct (arr_box _ _ _ _ I E) as (a & Ea & La). unfold add_point_to_bface_inbox. unfold arr at 1. rewrite Ea. cbn [rbind].
    unfold exists_face in Hs. destruct ((0 <=? fi)%Z && (fi <? Z.of_nat (List.length l))%Z) eqn:X.
    + injection Hs as <- <-. apply andb_prop in X. destruct X as [X1 X2]. apply Z.leb_le in X1. apply Z.ltb_lt in X2.
      replace ((fi <? 0) || (Z.of_nat (List.length a) <=? fi))%Z with false by lia. cbn [rbind]. unfold arr. rewrite Ea. cbn [rbind].
      set (i := Z.to_nat fi) in *. assert (Hi : i < List.length l) by lia.
      destruct (nth_error a i) as [p|] eqn:Ep. 2:{ apply nth_error_None in Ep. lia. }
      destruct (nth_error l i) as [x|] eqn:Ex. 2:{ apply nth_error_None in Ex. lia. }
      unfold at_. rewrite Ep. cbn [rbind]. destruct (B_ok _ _ I _ _ _ _ _ _ Ea E Ep Ex) as (g & Eg & Hg). unfold fget. rewrite Eg. cbn [rbind].
      eexists. split; [reflexivity|]. rewrite (mod_at_upd _ _ _ _ Ex). eapply put_ok; eauto.
      destruct Hg as (G1 & G2 & G3 & G4 & G5 & G6). unfold fok, addp. simpl. rewrite G3, G6. repeat split; auto.
      destruct (Z.eqb_spec (a_f x) f); auto.
    + injection Hs as <- <-. replace ((fi <? 0) || (Z.of_nat (List.length a) <=? fi))%Z with true.
      2:{ apply andb_false_iff in X. destruct X as [X|X]; [apply Z.leb_gt in X|apply Z.ltb_ge in X]; lia. }
      destruct (add_ok w s b l f I E) as (w1 & -> & I1). cbn [rbind].
      pose proof (upd_in s b (l ++ [newf f]) l E) as E1. destruct (arr_box _ _ _ _ I1 E1) as (a1 & Ea1 & La1). unfold arr. rewrite Ea1. cbn [rbind].
      rewrite app_length in La1. simpl in La1.
      destruct (nth_error a1 (List.length l)) as [p|] eqn:Ep. 2:{ apply nth_error_None in Ep. lia. }
      assert (Ex : nth_error (l ++ [newf f]) (List.length l) = Some (newf f)) by (rewrite nth_error_app2, Nat.sub_diag by lia; reflexivity).
      unfold at_. rewrite Ep. cbn [rbind]. destruct (B_ok _ _ I1 _ _ _ _ _ _ Ea1 E1 Ep Ex) as (g & Eg & Hg). unfold fget. rewrite Eg. cbn [rbind].
      eexists. split; [reflexivity|]. rewrite <- (upd_last l (newf f)), <- (upd_upd s b (l ++ [newf f])). eapply put_ok; eauto.
      destruct Hg as (G1 & G2 & G3 & G4 & G5 & G6). unfold fok, addp. simpl in *. rewrite G3, G6. rewrite Z.eqb_refl. repeat split; auto.
  - unfold exists_face in Hs. destruct ((0 <=? fi)%Z && (fi <? Z.of_nat (List.length l))%Z) eqn:X.
    + injection Hs as <- <-. apply andb_prop in X. destruct X as [X1 X2]. apply Z.leb_le in X1. apply Z.ltb_lt in X2.
      destruct (rm_ok w s b l (Z.to_nat fi) I E) as (w1 & R & I1); [lia|]. rewrite Z2Nat.id in R by lia. eauto.
    + injection Hs as <- <-. destruct (arr_box _ _ _ _ I E) as (a & Ea & La). unfold remove_bface, arr. rewrite Ea. cbn [rbind].
      replace ((fi <? 0) || (Z.of_nat (List.length a) <=? fi))%Z with true.
      2:{ apply andb_false_iff in X. destruct X as [X|X]; [apply Z.leb_gt in X|apply Z.ltb_ge in X]; lia. }
      exists w. rewrite upd_same; auto.
  - injection Hs as <- <-. unfold remove_bfaces_with_NULL_fpts. destruct (arr_box _ _ _ _ I E) as (a & Ea & La). unfold arr at 1. rewrite Ea. cbn [rbind]. rewrite La.
    apply (rm_null_ok _ w s b [] l 0 I E). lia.
  - injection Hs as <- <-. destruct (arr_box _ _ _ _ I E) as (a & Ea & La). unfold free_all_bfaces, arr. rewrite Ea. cbn [rbind].
    destruct (free_list_ok a w (arr_nd _ _ _ _ I Ea)) as (w1 & -> & A & Ln & Q). { intros p. eapply arr_live; eauto. } cbn [rbind].
    eexists. split; [reflexivity|]. apply (upd_box w s b l a _ [] []); auto; unfold aset; cbn [arrs fheap].
    + now rewrite A.
    + constructor.
    + intros p [].
    + intros i p x C. destruct i; discriminate.
    + intros p Hp _. rewrite Q. destruct (in_dec Nat.eq_dec p a); [contradiction|auto].
    + intros p f Ep. rewrite Q in Ep. destruct (in_dec Nat.eq_dec p a) as [|Hn]; [discriminate|]. right. split; auto. eapply nth_lt; eauto.
  - injection Hs as <- <-. destruct (arr_box _ _ _ _ I E) as (a & Ea & La). unfold set_other, arr. rewrite Ea. cbn [rbind].
    destruct (nth_error a fi) as [p|] eqn:Ep. 2:{ apply nth_error_None in Ep. lia. }
    destruct (nth_error l fi) as [x|] eqn:Ex. 2:{ apply nth_error_None in Ex. lia. }
    unfold at_. rewrite Ep. cbn [rbind]. destruct (B_ok _ _ I _ _ _ _ _ _ Ea E Ep Ex) as (g & Eg & Hg). unfold fget. rewrite Eg. cbn [rbind].
    eexists. split; [reflexivity|]. rewrite (mod_at_upd _ _ _ _ Ex). eapply put_ok; eauto.
    destruct Hg as (G1 & G2 & G3 & G4 & G5 & G6). unfold fok, seto. simpl. tauto.
Qed.
Lemma nth_rep {A} (x y : A) n i : nth_error (repeat x n) i = Some y -> y = x.
Proof. revert i. induction n; intros [|i] E; simpl in E; try discriminate; eauto. congruence. Qed.
Lemma Binv0 n : Binv (bw0 n) (repeat [] n).
Proof.
  constructor; cbn [bw0 arrs fheap].
  - now rewrite !repeat_length.
  - intros b a l E1 E2. apply nth_rep in E1, E2. now subst.
  - intros b a l i p x E1 E2 E3. apply nth_rep in E1. subst. destruct i; discriminate.
  - intros b a i b' a' i' p E1 E2 E3. apply nth_rep in E1. subst. destruct i; discriminate.
  - intros p f E. destruct p; discriminate.
Qed.
Lemma brun_ok os : forall w s s' xs, Binv w s -> bhist s os s' xs -> exists w', brun os w = Ok (w', xs) /\ Binv w' s'.
Proof.
  intros w s s' xs I H. revert w I. induction H as [s|s o os l l' x s' xs H1 H2 H3 H4 IH]; intros w I; cbn [brun].
  - eauto.
  - destruct (bstep_ok w s o l l' x I H1 H2 H3) as (w1 & -> & I1). cbn [rbind].
    destruct (IH _ I1) as (w2 & -> & I2). cbn [rbind]. eauto.
Qed.
