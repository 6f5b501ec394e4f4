(** C10: arithmetic on variable lists, over the reals. *)
From Coq Require Import Reals Lra.
From Verif Require Import Base Algebra_model Algebra_spec Algebra_proofs.
Local Open Scope R_scope.
Definition Reqb (x y : R) : bool := if Req_EM_T x y then true else false.
Definition aworldR := aworld R.
Definition valR (w : aworldR) (o : vlo R) := val_of R 0 (am R w) (idx R o).
Lemma Reqb_t x y : Reqb x y = true -> x = y.
Proof. unfold Reqb. destruct (Req_EM_T x y); auto; discriminate. Qed.
Lemma Reqb_f x y : Reqb x y = false -> x <> y.
Proof. unfold Reqb. destruct (Req_EM_T x y); auto; discriminate. Qed.

(** r = ca*a + cb*b. An input whose coefficient is 0 need not exist: [inp] only requires it otherwise.
    r may be the same list as a or b, or share variables with them (alias_ok in [input]). *)
Definition inp (g : agrid) (w : aworldR) (r : list nat) (c : R) (p : option nat) (o : vlo R) : Prop := c <> 0 -> input R g w r p o.
Theorem C10_vladd : forall g w r ca a cb b or oa ob,
  output R g w r or -> inp g w (idx R or) ca a oa -> inp g w (idx R or) cb b ob ->
  exists w', vladd R 0 Rplus Rmult Reqb g r ca a cb b w = Ok w' /\
    sets R g (idx R or) (am R w) (am R w') (fun bx i n => ca * valR w oa bx i n + cb * valR w ob bx i n) /\
    times R w w' r (ca * vtime R oa + cb * vtime R ob).
Proof.
  intros g w r ca a cb b or oa ob Ho Ha Hb. unfold vladd. pose proof (proj1 Ho) as Er. rewrite Er. cbn [rbind].
  destruct (Reqb ca 0) eqn:Eca; destruct (Reqb cb 0) eqn:Ecb;
    try (apply Reqb_t in Eca; subst ca); try (apply Reqb_t in Ecb; subst cb); try (apply Reqb_f in Eca; specialize (Ha Eca)); try (apply Reqb_f in Ecb; specialize (Hb Ecb)); cbv iota.
  - edestruct (loop_sets R) with (f := fun bx i n => 0 * valR w oa bx i n + 0 * valR w ob bx i n) as (m & E & Hs); [apply Ho| |rewrite E].
    { intros bx i Hp n v c Ev C. unfold ix. rewrite Ev. cbn [rbind]. erewrite (write_out R g w r or); eauto. do 2 f_equal. ring. }
    cbn [rbind]. eexists. split; [reflexivity|]. unfold settime. cbn [setmem vls]. unfold obj in Er. destruct r as [k|]; [|discriminate].
    destruct (nth_error (vls R w) k) eqn:Ek; [|discriminate]. cbn [am]. split; auto. apply (times_setmem R w _ _ _ m).
    replace (0 * vtime R oa + 0 * vtime R ob) with 0 by ring. pose proof (settime_ok R (setmem R w m) (Some k) or 0) as Q. unfold settime, obj in Q. cbn [setmem vls] in Q. rewrite Ek in Q. apply Q. exact Er.
  - edestruct (loop_sets R) with (f := fun bx i n => 0 * valR w oa bx i n + cb * valR w ob bx i n) as (m & E & Hs); [apply Ho| |rewrite E].
    { intros bx i Hp n v c Ev C. unfold ix at 1. rewrite Ev. cbn [rbind]. rewrite (proj1 Hb). cbn [rbind].
      destruct (read_in R g w _ b ob bx i n v c 0 Hb Hp Ev C) as (u & -> & Ru). cbn [rbind]. rewrite Ru. cbn [rbind].
      erewrite (write_out R g w r or); eauto. do 2 f_equal. unfold valR. ring. }
    cbn [rbind]. rewrite (proj1 Hb). cbn [rbind]. eexists. split; [reflexivity|].
    split. { unfold settime. cbn [setmem vls]. destruct r as [k|]; auto. destruct (nth_error (vls R w) k); auto. }
    apply (times_setmem R w _ _ _ m). replace (0 * vtime R oa + cb * vtime R ob) with (cb * vtime R ob) by ring. apply (settime_ok R _ _ or). exact Er.
  - edestruct (loop_sets R) with (f := fun bx i n => ca * valR w oa bx i n + 0 * valR w ob bx i n) as (m & E & Hs); [apply Ho| |rewrite E].
    { intros bx i Hp n v c Ev C. unfold ix at 1. rewrite Ev. cbn [rbind]. rewrite (proj1 Ha). cbn [rbind].
      destruct (read_in R g w _ a oa bx i n v c 0 Ha Hp Ev C) as (u & -> & Ru). cbn [rbind]. rewrite Ru. cbn [rbind].
      erewrite (write_out R g w r or); eauto. do 2 f_equal. unfold valR. ring. }
    cbn [rbind]. rewrite (proj1 Ha). cbn [rbind]. eexists. split; [reflexivity|].
    split. { unfold settime. cbn [setmem vls]. destruct r as [k|]; auto. destruct (nth_error (vls R w) k); auto. }
    apply (times_setmem R w _ _ _ m). replace (ca * vtime R oa + 0 * vtime R ob) with (ca * vtime R oa) by ring. apply (settime_ok R _ _ or). exact Er.
  - edestruct (loop_sets R) with (f := fun bx i n => ca * valR w oa bx i n + cb * valR w ob bx i n) as (m & E & Hs); [apply Ho| |rewrite E].
    { intros bx i Hp n v c Ev C. unfold ix at 1. rewrite Ev. cbn [rbind]. rewrite (proj1 Ha), (proj1 Hb). cbn [rbind].
      destruct (read_in R g w _ a oa bx i n v c 0 Ha Hp Ev C) as (u & -> & Ru). destruct (read_in R g w _ b ob bx i n v c 0 Hb Hp Ev C) as (u' & -> & Ru').
      cbn [rbind]. rewrite Ru, Ru'. cbn [rbind]. erewrite (write_out R g w r or); eauto. }
    cbn [rbind]. rewrite (proj1 Ha), (proj1 Hb). cbn [rbind]. eexists. split; [reflexivity|].
    split. { unfold settime. cbn [setmem vls]. destruct r as [k|]; auto. destruct (nth_error (vls R w) k); auto. }
    apply (times_setmem R w _ _ _ m). apply (settime_ok R _ _ or). exact Er.
Qed.
Print Assumptions C10_vladd.

Lemma sets_settime g r m w m' p t f : sets R g r m m' f -> sets R g r m (am R (settime R (setmem R w m') p t)) f.
Proof. unfold settime. cbn [setmem vls]. destruct p as [k|]; auto. destruct (nth_error (vls R w) k); auto. Qed.

(** r = a - b *)
Theorem C10_vlsubtract : forall g w r a b or oa ob,
  output R g w r or -> input R g w (idx R or) a oa -> input R g w (idx R or) b ob ->
  exists w', vlsubtract R Rminus g r a b w = Ok w' /\
    sets R g (idx R or) (am R w) (am R w') (fun bx i n => valR w oa bx i n - valR w ob bx i n) /\
    times R w w' r (vtime R oa - vtime R ob).
Proof.
  intros g w r a b or oa ob Ho Ha Hb. unfold vlsubtract. rewrite (proj1 Ho), (proj1 Ha), (proj1 Hb). cbn [rbind].
  edestruct (loop_sets R) as (m & E & Hs); [apply Ho| |rewrite E].
  { intros bx i Hp n v c Ev C. unfold ix at 1. rewrite Ev. cbn [rbind].
    destruct (read_in R g w _ a oa bx i n v c 0 Ha Hp Ev C) as (u & -> & Ru). destruct (read_in R g w _ b ob bx i n v c 0 Hb Hp Ev C) as (u' & -> & Ru').
    cbn [rbind]. rewrite Ru, Ru'. cbn [rbind]. erewrite (write_out R g w r or); eauto.
    instantiate (1 := fun bx i n => valR w oa bx i n - valR w ob bx i n). reflexivity. }
  cbn [rbind]. eexists. split; [reflexivity|]. split; [now apply sets_settime|]. apply (times_setmem R w _ _ _ m), (settime_ok R _ _ or), Ho.
Qed.
Print Assumptions C10_vlsubtract.

(** r = (a + b)/2 *)
Theorem C10_vlaverage : forall g w r a b or oa ob,
  output R g w r or -> input R g w (idx R or) a oa -> input R g w (idx R or) b ob ->
  exists w', vlaverage R (1/2) Rplus Rmult g r a b w = Ok w' /\
    sets R g (idx R or) (am R w) (am R w') (fun bx i n => (valR w oa bx i n + valR w ob bx i n) / 2) /\
    times R w w' r ((vtime R oa + vtime R ob) / 2).
Proof.
  intros g w r a b or oa ob Ho Ha Hb. unfold vlaverage. rewrite (proj1 Ho), (proj1 Ha), (proj1 Hb). cbn [rbind].
  edestruct (loop_sets R) as (m & E & Hs); [apply Ho| |rewrite E].
  { intros bx i Hp n v c Ev C. unfold ix at 1. rewrite Ev. cbn [rbind].
    destruct (read_in R g w _ a oa bx i n v c 0 Ha Hp Ev C) as (u & -> & Ru). destruct (read_in R g w _ b ob bx i n v c 0 Hb Hp Ev C) as (u' & -> & Ru').
    cbn [rbind]. rewrite Ru, Ru'. cbn [rbind]. erewrite (write_out R g w r or); eauto.
    instantiate (1 := fun bx i n => (valR w oa bx i n + valR w ob bx i n) / 2). do 2 f_equal. unfold valR. field. }
  cbn [rbind]. eexists. split; [reflexivity|]. split; [now apply sets_settime|]. apply (times_setmem R w _ _ _ m).
  replace ((vtime R oa + vtime R ob) / 2) with (1 / 2 * (vtime R oa + vtime R ob)) by field. apply (settime_ok R _ _ or), Ho.
Qed.
Print Assumptions C10_vlaverage.

(** r = r + ca*a; for ca = 0 the list a need not exist *)
Theorem C10_vladdto : forall g w r ca a or oa,
  output R g w r or -> inp g w (idx R or) ca a oa ->
  exists w', vladdto R 0 1 (-1) Rplus Rminus Rmult Reqb g r ca a w = Ok w' /\
    sets R g (idx R or) (am R w) (am R w') (fun bx i n => valR w or bx i n + ca * valR w oa bx i n) /\
    times R w w' r (vtime R or + ca * vtime R oa).
Proof.
  intros g w r ca a or oa Ho Ha. unfold vladdto. pose proof (proj1 Ho) as Er. rewrite Er. cbn [rbind]. destruct (Reqb ca 0) eqn:Eca.
  - apply Reqb_t in Eca. subst ca. exists w. split; auto. split.
    + split; auto. intros b i Hp n v Ev. unfold valR, val_of. rewrite Ev. destruct Ho as (_ & _ & S). specialize (S b i Hp v (nth_error_In _ _ Ev)).
      destruct (am R w b i v); [|congruence]. f_equal. ring.
    + unfold obj in Er. destruct r as [k|]; [|discriminate]. destruct (nth_error (vls R w) k) as [o|] eqn:Ek; [|discriminate]. injection Er as ->.
      exists k, or. repeat split; auto. rewrite Ek. destruct or. simpl. do 2 f_equal. ring.
  - apply Reqb_f in Eca. specialize (Ha Eca). rewrite (proj1 Ha). cbn [rbind].
    assert (Hr : input R g w (idx R or) r or). { destruct Ho as (A & N & S). repeat split; auto. intros n k v E1 E2.
      assert (n = k); [|lia]. apply (proj1 (NoDup_nth_error _) N); [apply nth_error_Some; congruence|congruence]. }
    edestruct (loop_sets R) as (m & E & Hs); [apply Ho| |rewrite E].
    { intros bx i Hp n v c Ev C. destruct (read_in R g w _ r or bx i n v c 0 Hr Hp Ev C) as (u' & Eu' & Ru').
      unfold ix in Eu'. rewrite Ev in Eu'. injection Eu' as <-. unfold ix at 1. rewrite Ev. cbn [rbind].
      destruct (read_in R g w _ a oa bx i n v c 0 Ha Hp Ev C) as (u & -> & Ru).
      cbn [rbind]. rewrite Ru, Ru'. cbn [rbind]. erewrite (write_out R g w r or); eauto.
      instantiate (1 := fun bx i n => valR w or bx i n + ca * valR w oa bx i n). do 2 f_equal. unfold valR.
      destruct (Reqb ca 1) eqn:E1. { apply Reqb_t in E1. subst. ring. } destruct (Reqb ca (-1)) eqn:E2; auto. apply Reqb_t in E2. subst. ring. }
    cbn [rbind]. eexists. split; [reflexivity|]. split; [now apply sets_settime|]. apply (times_setmem R w _ _ _ m), (settime_ok R _ _ or), Ho.
Qed.
Print Assumptions C10_vladdto.
Lemma am_settime w p t : am R (settime R w p t) = am R w.
Proof. unfold settime. destruct p as [k|]; auto. destruct (nth_error (vls R w) k); auto. Qed.

(** v = u *)
Theorem C10_vlcopy : forall g w v u ov ou,
  output R g w v ov -> input R g w (idx R ov) u ou ->
  exists w', vlcopy R g v u w = Ok w' /\
    sets R g (idx R ov) (am R w) (am R w') (fun bx i n => valR w ou bx i n) /\ times R w w' v (vtime R ou).
Proof.
  intros g w v u ov ou Ho Ha. unfold vlcopy. rewrite (proj1 Ho), (proj1 Ha). cbn [rbind]. rewrite am_settime.
  edestruct (loop_sets R) with (f := fun bx i n => valR w ou bx i n) as (m & E & Hs); [apply Ho| |rewrite E].
  { intros bx i Hp n v' c Ev C. destruct (read_in R g w _ u ou bx i n v' c 0 Ha Hp Ev C) as (x & -> & Ru).
    unfold ix at 1. rewrite Ev. cbn [rbind]. rewrite Ru. cbn [rbind]. erewrite (write_out R g w v ov); eauto. }
  cbn [rbind]. eexists. split; [reflexivity|]. split; auto. pose proof (settime_ok R w v ov (vtime R ou) (proj1 Ho)) as T. exact T.
Qed.
Print Assumptions C10_vlcopy.

(** u = c *)
Theorem C10_vlsetconstant : forall g w u ou x,
  obj R w u = Ok ou -> NoDup (idx R ou) -> stored R g (idx R ou) (am R w) ->
  exists w', vlsetconstant R g u x w = Ok w' /\ sets R g (idx R ou) (am R w) (am R w') (fun _ _ _ => x) /\ vls R w' = vls R w.
Proof.
  intros g w u ou x Eu N S. unfold vlsetconstant. rewrite Eu. cbn [rbind].
  edestruct (loop_sets R) with (f := fun _ _ _ : nat => x) as (m & E & Hs); [exact N| |rewrite E].
  { intros bx i Hp n v c Ev C. unfold ix. rewrite Ev. cbn [rbind]. erewrite (write_out R g w u ou); [|split; [exact Eu|split; auto]|eauto|eauto|eauto]. reflexivity. }
  cbn [rbind]. eexists. split; [reflexivity|]. split; auto.
Qed.
Print Assumptions C10_vlsetconstant.

(** v and u exchange values and times; they are disjoint or agree in position *)
Theorem C10_vlswap : forall g w v u ov ou kv ku,
  v = Some kv -> u = Some ku ->
  output R g w v ov -> output R g w u ou -> List.length (idx R ov) = List.length (idx R ou) ->
  (forall n k x, nth_error (idx R ov) n = Some x -> nth_error (idx R ou) k = Some x -> n = k) ->
  exists w', vlswap R g v u w = Ok w' /\
   (forall b i, active_pt g b i -> forall n a c, nth_error (idx R ov) n = Some a -> nth_error (idx R ou) n = Some c ->
       am R w' b i a = am R w b i c /\ am R w' b i c = am R w b i a) /\
   (forall b i x, ~ (active_pt g b i /\ (In x (idx R ov) \/ In x (idx R ou))) -> am R w' b i x = am R w b i x) /\
   nth_error (vls R w') kv = Some {| idx := idx R ov; vtime := vtime R ou |} /\
   nth_error (vls R w') ku = Some {| idx := idx R ou; vtime := vtime R ov |} /\
   (forall j, j <> kv -> j <> ku -> nth_error (vls R w') j = nth_error (vls R w) j).
Proof.
  intros g w v u ov ou kv ku -> -> Hv Hu L X. unfold vlswap. rewrite (proj1 Hv), (proj1 Hu). cbn [rbind]. rewrite !am_settime.
  destruct Hv as (Ev & Nv & Sv), Hu as (Eu & Nu & Su).
  edestruct (loop_cols R) as (m & E & A & B); [|rewrite E].
  { intros b i Hp. destruct (swap_col R (idx R ov) (idx R ou) (am R w b i) Nv Nu ltac:(lia) X) with (k := List.length (idx R ov)) as (c & Ec & C1 & C2); auto.
    { intros x [H|H]; [apply (Sv b i Hp)|apply (Su b i Hp)]; auto. }
    exists c. split; [exact Ec|].
    instantiate (1 := fun b i c => (forall n a d, nth_error (idx R ov) n = Some a -> nth_error (idx R ou) n = Some d -> c a = am R w b i d /\ c d = am R w b i a) /\
      (forall x, ~ (In x (idx R ov) \/ In x (idx R ou)) -> c x = am R w b i x)). cbv beta. split.
    - intros n a d E1 E2. apply (C1 n); auto. apply nth_error_Some. congruence.
    - intros x Hx. apply C2. intros n _. split; intros Q; apply Hx; apply nth_error_In in Q; auto. }
  cbn [rbind]. eexists. split; [reflexivity|]. cbn [setmem am vls]. split. { intros b i Hp. apply (A b i Hp). } split.
  { intros b i x Hn. assert (D : active_pt g b i \/ ~ active_pt g b i).
    { unfold active_pt. destruct (nth_error g b) as [[[|] nn]|] eqn:Eb.
      - destruct (Nat.lt_ge_cases i nn); [left; eauto|right]. intros (n' & Q & Q'). injection Q as <-. lia.
      - right. intros (n' & Q & _). discriminate.
      - right. intros (n' & Q & _). discriminate. }
    destruct D as [Hp|Hp]; [|now rewrite B]. apply (proj2 (A b i Hp)). tauto. }
  unfold obj in Ev, Eu. destruct (nth_error (vls R w) kv) as [o1|] eqn:E1; [|discriminate]. destruct (nth_error (vls R w) ku) as [o2|] eqn:E2; [|discriminate].
  injection Ev as ->. injection Eu as ->. unfold settime at 1 3 5. unfold settime. rewrite E1. cbn [vls am].
  assert (L1 : (kv < List.length (vls R w))%nat) by (apply nth_error_Some; congruence). assert (L2 : (ku < List.length (vls R w))%nat) by (apply nth_error_Some; congruence).
  destruct (Nat.eq_dec kv ku) as [->|NE].
  - assert (ov = ou) as -> by congruence. rewrite !nth_error_upd_eq by auto. cbn [vls idx]. rewrite !nth_error_upd_eq by (rewrite ?upd_length; auto).
    repeat split; auto. intros j H1 _. now rewrite !nth_error_upd_ne by auto.
  - rewrite nth_error_upd_ne by auto. rewrite E2. cbn [vls idx]. rewrite (nth_error_upd_ne _ ku kv) by auto.
    rewrite !nth_error_upd_eq by (rewrite ?upd_length; auto). repeat split; auto. intros j H1 H2. now rewrite !nth_error_upd_ne by auto.
Qed.
Print Assumptions C10_vlswap.

(** The single-variable wrappers: any of the three variables may coincide; the program's lists do not
    change. *)
Lemma nth_ext_ {A} (l : list A) : forall m, (forall j, nth_error l j = nth_error m j) -> l = m.
Proof.
  induction l as [|x l IH]; intros [|y m] H; auto; try (specialize (H 0%nat); discriminate).
  pose proof (H 0%nat) as H0. injection H0 as ->. f_equal. apply IH. intros j. apply (H (S j)).
Qed.
Lemma vls_times (w w' : aworldR) p t l : times R w w' p t -> forall k, p = Some k -> (List.length l <= k)%nat -> firstn (List.length l) (vls R w) = l -> firstn (List.length l) (vls R w') = l.
Proof.
  intros (k & o & -> & _ & _ & L & Q) k' E Hk H. injection E as <-. rewrite <- H at 2. apply nth_ext_. intros j.
  destruct (Nat.lt_ge_cases j (List.length l)) as [Hj|Hj].
  - assert (X : forall v : list (vlo R), nth_error (firstn (List.length l) v) j = nth_error v j).
    { intros v. clear - Hj. revert j Hj v. induction (List.length l) as [|n IH]; intros j Hj v; [lia|]. destruct v as [|y v]; [now destruct j|]. destruct j as [|j]; simpl; auto. apply IH. lia. }
    rewrite !X. apply Q. lia.
  - assert (X : forall v : list (vlo R), nth_error (firstn (List.length l) v) j = None).
    { intros v. apply nth_error_None. rewrite firstn_length. lia. } now rewrite !X.
Qed.
Lemma firstn_app_self {A} (l m : list A) : firstn (List.length l) (l ++ m) = l.
Proof. rewrite firstn_app, firstn_all, Nat.sub_diag. simpl. apply app_nil_r. Qed.
Lemma nd1 (i : nat) : NoDup [i]. Proof. constructor; [intros []|constructor]. Qed.
Lemma al1 (i j : nat) : alias_ok [i] [j].
Proof. intros n k v E1 E2. destruct n as [|[|n]]; try discriminate. destruct k as [|[|k]]; try discriminate. lia. Qed.
Definition v1 (w : aworldR) (iv b i : nat) : R := match am R w b i iv with Some x => x | None => 0 end.
Theorem C10_varadd : forall g w ir ca ia cb ib,
  stored R g [ir] (am R w) -> (ca <> 0 -> stored R g [ia] (am R w)) -> (cb <> 0 -> stored R g [ib] (am R w)) ->
  exists w', varadd R 0 Rplus Rmult Reqb g ir ca ia cb ib w = Ok w' /\
    sets R g [ir] (am R w) (am R w') (fun b i _ => ca * v1 w ia b i + cb * v1 w ib b i) /\ vls R w' = vls R w.
Proof.
  intros g w ir ca ia cb ib Sr Sa Sb. unfold varadd. set (k := List.length (vls R w)).
  set (w1 := with1 R 0 ir (with1 R 0 ib (with1 R 0 ia w))).
  assert (V : vls R w1 = vls R w ++ [{| idx := [ia]; vtime := 0 |}; {| idx := [ib]; vtime := 0 |}; {| idx := [ir]; vtime := 0 |}]).
  { unfold w1, with1. simpl. now rewrite <- !app_assoc. }
  assert (N : forall j, nth_error (vls R w1) (k + j) = nth_error [{| idx := [ia]; vtime := 0 |}; {| idx := [ib]; vtime := 0 |}; {| idx := [ir]; vtime := 0 |}] j).
  { intros j. rewrite V. rewrite nth_error_app2 by (unfold k; lia). f_equal. unfold k. lia. }
  assert (O0 : obj R w1 (Some k) = Ok {| idx := [ia]; vtime := 0 |}). { unfold obj. replace k with (k + 0)%nat by lia. now rewrite N. }
  assert (O1 : obj R w1 (Some (S k)) = Ok {| idx := [ib]; vtime := 0 |}). { unfold obj. replace (S k) with (k + 1)%nat by lia. now rewrite N. }
  assert (O2 : obj R w1 (Some (S (S k))) = Ok {| idx := [ir]; vtime := 0 |}). { unfold obj. replace (S (S k)) with (k + 2)%nat by lia. now rewrite N. }
  destruct (C10_vladd g w1 (Some (S (S k))) ca (Some k) cb (Some (S k)) {| idx := [ir]; vtime := 0 |} {| idx := [ia]; vtime := 0 |} {| idx := [ib]; vtime := 0 |}) as (w' & E & HS & T).
  - split; [exact O2|]. split; [apply nd1|exact Sr].
  - intros Hc. split; [exact O0|]. split; [apply le_n|]. split; [exact (Sa Hc)|apply al1].
  - intros Hc. split; [exact O1|]. split; [apply le_n|]. split; [exact (Sb Hc)|apply al1].
  - rewrite E. cbn [rbind]. eexists. split; [reflexivity|]. split.
    + cbn [idx] in HS. unfold drop_to. cbn [am]. destruct HS as [S1 S2]. split; [|exact S2].
      intros b i Hp n v Ev. rewrite (S1 b i Hp n v Ev). destruct n as [|[|n]]; try discriminate. reflexivity.
    + unfold drop_to. cbn [vls]. apply (vls_times w1 w' _ _ (vls R w) T (S (S k)) eq_refl). { unfold k. lia. } rewrite V. apply firstn_app_self.
Qed.
Print Assumptions C10_varadd.
Theorem C10_varcopy : forall g w iv iu,
  stored R g [iv] (am R w) -> stored R g [iu] (am R w) ->
  exists w', varcopy R 0 g iv iu w = Ok w' /\ sets R g [iv] (am R w) (am R w') (fun b i _ => v1 w iu b i) /\ vls R w' = vls R w.
Proof.
  intros g w iv iu Sv Su. unfold varcopy. set (k := List.length (vls R w)). set (w1 := with1 R 0 iu (with1 R 0 iv w)).
  assert (V : vls R w1 = vls R w ++ [{| idx := [iv]; vtime := 0 |}; {| idx := [iu]; vtime := 0 |}]).
  { unfold w1, with1. simpl. now rewrite <- !app_assoc. }
  assert (N : forall j, nth_error (vls R w1) (k + j) = nth_error [{| idx := [iv]; vtime := 0 |}; {| idx := [iu]; vtime := 0 |}] j).
  { intros j. rewrite V. rewrite nth_error_app2 by (unfold k; lia). f_equal. unfold k. lia. }
  assert (O0 : obj R w1 (Some k) = Ok {| idx := [iv]; vtime := 0 |}). { unfold obj. replace k with (k + 0)%nat by lia. now rewrite N. }
  assert (O1 : obj R w1 (Some (S k)) = Ok {| idx := [iu]; vtime := 0 |}). { unfold obj. replace (S k) with (k + 1)%nat by lia. now rewrite N. }
  destruct (C10_vlcopy g w1 (Some k) (Some (S k)) {| idx := [iv]; vtime := 0 |} {| idx := [iu]; vtime := 0 |}) as (w' & E & HS & T).
  - split; [exact O0|]. split; [apply nd1|exact Sv].
  - split; [exact O1|]. split; [apply le_n|]. split; [exact Su|apply al1].
  - rewrite E. cbn [rbind]. eexists. split; [reflexivity|]. split.
    + cbn [idx] in HS. unfold drop_to. cbn [am]. destruct HS as [S1 S2]. split; [|exact S2].
      intros b i Hp n v Ev. rewrite (S1 b i Hp n v Ev). destruct n as [|[|n]]; try discriminate. reflexivity.
    + unfold drop_to. cbn [vls]. apply (vls_times w1 w' _ _ (vls R w) T k eq_refl). { unfold k. lia. } rewrite V. apply firstn_app_self.
Qed.
Print Assumptions C10_varcopy.

(** The alias condition is needed: copying (v0,v1) to (v1,v2) in one call copies v0 into both. *)
Theorem C10_shifted_alias_refuted : exists (g : agrid) (w : aworldR) w',
  vlcopy R g (Some 0%nat) (Some 1%nat) w = Ok w' /\ stored R g [0; 1; 2]%nat (am R w) /\
  idx R (nth 0 (vls R w) {| idx := []; vtime := 0 |}) = [1; 2]%nat /\ idx R (nth 1 (vls R w) {| idx := []; vtime := 0 |}) = [0; 1]%nat /\
  active_pt g 0 0 /\ am R w' 0%nat 0%nat 2%nat <> am R w 0%nat 0%nat 1%nat.
Proof.
  exists [(true, 1%nat)], {| am := fun _ _ v => match v with O => Some 1 | _ => Some 2 end; vls := [{| idx := [1; 2]%nat; vtime := 0 |}; {| idx := [0; 1]%nat; vtime := 0 |}] |}.
  eexists. split; [reflexivity|]. split. { intros b i _ v _. simpl. destruct v; discriminate. } split; [reflexivity|]. split; [reflexivity|].
  split. { exists 1%nat. split; [reflexivity|lia]. } simpl. intros E. injection E as E. lra.
Qed.
Print Assumptions C10_shifted_alias_refuted.

(** hypotheses of the theorems hold for a call r = r + 2*a with r and a partly overlapping *)
Example C10_example : exists (g : agrid) (w : aworldR) or oa,
  output R g w (Some 0%nat) or /\ inp g w (idx R or) 1 (Some 0%nat) or /\ inp g w (idx R or) 2 (Some 1%nat) oa /\ idx R or = [3; 5]%nat /\ idx R oa = [3; 4]%nat /\
  active_pt g 1 2 /\ ~ active_pt g 0 2.
Proof.
  exists [(false, 7%nat); (true, 3%nat)], {| am := fun b i v => Some (INR (b + i + v)); vls := [{| idx := [3; 5]%nat; vtime := 1 |}; {| idx := [3; 4]%nat; vtime := 2 |}] |}.
  eexists. eexists. assert (St : forall g l (m : nat -> nat -> nat -> R), stored R g l (fun b i v => Some (m b i v))) by (intros g l m b i _ v _; discriminate).
  split. { split; [reflexivity|]. split. { repeat constructor; simpl; intuition lia. } apply (St _ _ (fun b i v => INR (b + i + v))). }
  split. { intros _. split; [reflexivity|]. split; [apply le_n|]. split; [apply (St _ _ (fun b i v => INR (b + i + v)))|].
    intros n k v E1 E2. simpl in *. destruct n as [|[|[|n]]], k as [|[|[|k]]]; simpl in *; try discriminate; try lia; congruence. }
  split. { intros _. split; [reflexivity|]. split; [apply le_n|]. split; [apply (St _ _ (fun b i v => INR (b + i + v)))|].
    intros n k v E1 E2. simpl in *. destruct n as [|[|[|n]]], k as [|[|[|k]]]; simpl in *; try discriminate; try lia; congruence. }
  split; [reflexivity|]. split; [reflexivity|]. split. { exists 3%nat. split; [reflexivity|lia]. } intros (nn & E & _). discriminate.
Qed.
