(** C07, AddDuplicate: the duplicated list names, in order, the variables with the postfix; missing ones are created once, existing ones are
    used, and no variable that was there is changed. *)
From Verif Require Import Base Tensors_model Tensors_spec Tensors_proofs Vars_model Vars_spec Vars_api_spec Vars_proofs Vlist_proofs.

Section P.
Variable D : Type.
Variable d0 : D.
(** w is a copy of v under another name *)
Definition copy_of (v w : var D) : Prop :=
  v_tens D w = v_tens D v /\ v_ncomp D w = v_ncomp D v /\ v_comp D w = v_comp D v /\ v_bound D w = v_bound D v /\
  v_sym D w = v_sym D v /\ v_const D w = v_const D v /\ v_desc D w = v_desc D v.

Lemma addvar_scalar name d (s : vstate D) : restarts D s = 0 -> ~ In (cut99 name) (map (v_name D) (vdb D s)) ->
  exists w, AddVar D d0 name [] d s = Ok {| vdb := vdb D s ++ [w]; vStart := vStart D s; restarts := restarts D s |} /\
    v_name D w = cut99 name /\ v_desc D w = d /\ v_index D w = nvdb D s.
Proof.
  intros R N. unfold AddVar. assert (T : exists sym, tensorindexlist [] = Ok ([[]], sym)) by (eexists; vm_compute; reflexivity).
  destruct T as [sym T]. rewrite T. cbn [rbind addvar_loop]. unfold addvar1. unfold fullname. rewrite app_nil_r.
  replace (existsb _ _) with false.
  2:{ symmetry. apply not_true_iff_false. intros C. apply (in_names_existsb D) in C. contradiction. }
  cbn [rbind]. eexists. repeat split.
Qed.

Lemma upd_last {A} (l : list A) x y : upd (l ++ [x]) (List.length l) y = l ++ [y].
Proof. now apply upd_app. Qed.

Lemma set_mid v l x rest i y : vl_buf v = map Some l ++ x :: rest -> i = List.length l ->
  exists u, vl_set v i (Some y) = Ok u /\ vl_buf u = map Some (l ++ [y]) ++ rest /\ vl_n u = vl_n v.
Proof. intros B E. rewrite (vl_set_mid v l x rest i y B E). eexists. split; [reflexivity|]. split; reflexivity. Qed.

Lemma dup_ok (old : list (var D)) (vl : vlist) postfix rest0 l : vl_buf vl = map Some l ++ rest0 ->
  forall todo done done' (newvl : vlist) rest (s : vstate D) new,
  l = done ++ todo -> vl_buf newvl = map Some (done' ++ todo) ++ rest -> vl_n newvl = List.length l ->
  List.length done' = List.length done -> vdb D s = old ++ new ->
  restarts D s = 0 -> indexed D (vdb D s) -> NoDup (map (v_name D) (vdb D s)) ->
  Forall (fun a => exists v, (0 <= a)%Z /\ nth_error old (Z.to_nat a) = Some v /\ List.length (v_name D v ++ postfix) <= 99) l ->
  exists s' newvl' added more, adddup_loop D d0 (List.length todo) (List.length done) vl newvl postfix s = Ok (s', newvl') /\
    vl_is newvl' (done' ++ added) /\ List.length added = List.length todo /\ vdb D s' = old ++ new ++ more /\ 
    indexed D (vdb D s') /\ NoDup (map (v_name D) (vdb D s')) /\ restarts D s' = 0 /\ vStart D s' = vStart D s /\
    (forall i a b v, nth_error todo i = Some a -> nth_error added i = Some b -> nth_error old (Z.to_nat a) = Some v ->
       exists w, (0 <= b)%Z /\ nth_error (vdb D s') (Z.to_nat b) = Some w /\ v_name D w = v_name D v ++ postfix) /\
    (forall w, In w more -> exists a v, In a todo /\ nth_error old (Z.to_nat a) = Some v /\ v_name D w = v_name D v ++ postfix /\ copy_of v w).
Proof.
  intros Bvl. induction todo as [|a todo IH]; intros done done' newvl rest s new El Eb En Ld Ev R I N F.
  - exists s, newvl, [], []. cbn [List.length adddup_loop]. rewrite !app_nil_r in *. repeat split; auto.
    + exists rest. split; auto. rewrite En, El. now rewrite Ld.
    + intros i a b v H. destruct i; discriminate.
    + intros w [].
  - assert (Fa : exists v, (0 <= a)%Z /\ nth_error old (Z.to_nat a) = Some v /\ List.length (v_name D v ++ postfix) <= 99).
    { rewrite Forall_forall in F. apply F. rewrite El. apply in_or_app. right. now left. }
    destruct Fa as (v & A0 & Hv & Lv).
    assert (Hv' : nth_error (vdb D s) (Z.to_nat a) = Some v) by (rewrite Ev, nth_error_app1; auto; apply nth_error_Some; congruence).
    cbn [List.length adddup_loop]. unfold vl_get at 1. rewrite Bvl, El.
    rewrite map_app, <- app_assoc. cbn [map app]. rewrite nth_error_mid by (now rewrite map_length). cbn [rbind].
    assert (G : getvar D s a = Ok v). { unfold getvar. replace (a <? 0)%Z with false by (symmetry; apply Z.ltb_ge; lia). now rewrite Hv'. }
    rewrite G. cbn [rbind]. set (name := firstn 999 (v_name D v ++ postfix)).
    assert (En' : name = v_name D v ++ postfix) by (apply firstn_all2; apply Nat.le_trans with (1 := Lv); apply Nat.leb_le; vm_compute; reflexivity).
    clearbody name. subst name.
    assert (C : cut99 (v_name D v ++ postfix) = v_name D v ++ postfix) by (now apply firstn_all2).
    destruct (in_dec (list_eq_dec ascii_dec) (v_name D v ++ postfix) (map (v_name D) (vdb D s))) as [Hi|Hi].
    + (* exists already *)
      apply in_map_iff in Hi as (w & Hw & Hi). apply In_nth_error in Hi as [k Hk].
      rewrite <- Hw. rewrite (IndLax_found D s k w I N Hk). replace (Z.of_nat k >=? 0)%Z with true by (symmetry; apply Z.geb_le; lia).
      destruct (set_mid newvl done' (Some a) (map Some todo ++ rest) (List.length done) (Z.of_nat k)) as (u & U1 & U2 & U3).
      { rewrite Eb, map_app, <- app_assoc. reflexivity. } { auto. }
      rewrite U1. cbn [rbind].
      destruct (IH (done ++ [a]) (done' ++ [Z.of_nat k]) u rest s new) as (s' & nv & added & more & A1 & A2 & A3 & A4 & A5 & A6 & A7 & A8 & A9 & A10); auto.
      { now rewrite <- app_assoc. }
      { rewrite U2. rewrite !map_app. cbn [map]. rewrite <- !app_assoc. reflexivity. }
      { congruence. }
      { rewrite !app_length. cbn. lia. }
      rewrite app_length in A1. cbn [List.length] in A1. rewrite Nat.add_1_r in A1.
      exists s', nv, (Z.of_nat k :: added), more. split; [exact A1|]. split.
      { now rewrite <- app_assoc in A2. }
      split; [cbn; lia|]. do 5 (split; [auto|]). split.
      * intros [|i] a' b' v' Q1 Q2 Q3; cbn in Q1, Q2.
        -- injection Q1 as <-. injection Q2 as <-. rewrite Hv in Q3. injection Q3 as <-. exists w. split; [lia|]. split; auto.
           rewrite Nat2Z.id. rewrite A4, app_assoc, <- Ev. rewrite nth_error_app1; auto. apply nth_error_Some. congruence.
        -- eapply A9; eauto.
      * intros w' Hw'. destruct (A10 w' Hw') as (a' & v' & X & Y & Z1). exists a', v'. split; [now right|auto].
    + (* new *)
      rewrite (IndLax_absent D s _ Hi). replace (-1 >=? 0)%Z with false by reflexivity.
      destruct (addvar_scalar (v_name D v ++ postfix) (v_desc D v) s R) as (w & W1 & W2 & W3 & W4); [now rewrite C|].
      rewrite C in W2. rewrite W1. cbn [rbind]. set (s1 := {| vdb := vdb D s ++ [w]; vStart := vStart D s; restarts := restarts D s |}) in *.
      assert (N1 : NoDup (map (v_name D) (vdb D s1))).
      { cbn [vdb s1]. rewrite map_app. cbn [map]. rewrite W2. rewrite <- (rev_involutive (map _ _ ++ _)). apply NoDup_rev. rewrite rev_app_distr. cbn. constructor; [|now apply NoDup_rev].
        now rewrite <- in_rev. }
      assert (I1 : indexed D (vdb D s1)).
      { intros k u Hk. cbn [vdb s1] in Hk. destruct (Nat.lt_ge_cases k (List.length (vdb D s))) as [Lk|Lk].
        - rewrite nth_error_app1 in Hk by auto. now apply I.
        - rewrite nth_error_app2 in Hk by auto. destruct (k - List.length (vdb D s)) as [|m] eqn:E; [|destruct m; discriminate].
          injection Hk as <-. rewrite W4. unfold nvdb. f_equal. lia. }
      assert (Hk : nth_error (vdb D s1) (List.length (vdb D s)) = Some w) by (cbn [vdb s1]; rewrite nth_error_app2, Nat.sub_diag by lia; reflexivity).
      pose proof (Ind_found D s1 _ _ I1 N1 Hk) as FI. rewrite W2 in FI. rewrite FI. cbn [rbind].
      destruct (set_mid newvl done' (Some a) (map Some todo ++ rest) (List.length done) (Z.of_nat (List.length (vdb D s)))) as (u & U1 & U2 & U3).
      { rewrite Eb, map_app, <- app_assoc. reflexivity. } { auto. }
      rewrite U1. cbn [rbind].
      assert (G1 : getvar D s1 a = Ok v).
      { unfold getvar. replace (a <? 0)%Z with false by (symmetry; apply Z.ltb_ge; lia). cbn [vdb s1]. rewrite nth_error_app1, Hv'; auto. apply nth_error_Some. congruence. }
      rewrite G1. cbn [rbind]. rewrite (getvar_nth D _ _ _ Hk). cbn [rbind].
      unfold setvar. replace (Z.of_nat (List.length (vdb D s)) <? 0)%Z with false by (symmetry; apply Z.ltb_ge; lia).
      replace (Z.of_nat (List.length (vdb D s)) <? nvdb D s1)%Z with true.
      2:{ symmetry. apply Z.ltb_lt. unfold nvdb. cbn [vdb s1]. rewrite app_length. cbn. lia. }
      cbn [rbind]. rewrite Nat2Z.id. cbn [vdb vStart restarts s1]. rewrite upd_last.
      set (w' := copy_info D v w). set (s2 := {| vdb := vdb D s ++ [w']; vStart := vStart D s; restarts := restarts D s |}).
      assert (Names : map (v_name D) (vdb D s2) = map (v_name D) (vdb D s1)) by (cbn [vdb s1 s2]; rewrite !map_app; reflexivity).
      destruct (IH (done ++ [a]) (done' ++ [Z.of_nat (List.length (vdb D s))]) u rest s2 (new ++ [w'])) as (s' & nv & added & more & A1 & A2 & A3 & A4 & A5 & A6 & A7 & A8 & A9 & A10); auto.
      { now rewrite <- app_assoc. }
      { rewrite U2. rewrite !map_app. cbn [map]. rewrite <- !app_assoc. reflexivity. }
      { congruence. }
      { rewrite !app_length. cbn. lia. }
      { cbn [vdb s2]. now rewrite Ev, app_assoc. }
      { intros k x Hx. cbn [vdb s2] in Hx. destruct (Nat.lt_ge_cases k (List.length (vdb D s))) as [Lk|Lk].
        - rewrite nth_error_app1 in Hx by auto. now apply I.
        - rewrite nth_error_app2 in Hx by auto. destruct (k - List.length (vdb D s)) as [|m] eqn:E; [|destruct m; discriminate].
          injection Hx as <-. unfold w', copy_info. cbn [v_index]. rewrite W4. unfold nvdb. f_equal. lia. }
      { now rewrite Names. }
      rewrite app_length in A1. cbn [List.length] in A1. rewrite Nat.add_1_r in A1.
      exists s', nv, (Z.of_nat (List.length (vdb D s)) :: added), (w' :: more). split; [exact A1|]. split.
      { now rewrite <- app_assoc in A2. }
      split; [cbn; lia|]. split. { now rewrite A4, <- app_assoc. }
      do 4 (split; [auto|]). split.
      * intros [|i] a' b' v' Q1 Q2 Q3; cbn in Q1, Q2.
        -- injection Q1 as <-. injection Q2 as <-. rewrite Hv in Q3. injection Q3 as <-. exists w'. split; [lia|]. split; auto.
           rewrite Nat2Z.id. rewrite A4, <- app_assoc, app_assoc, <- Ev. rewrite nth_error_app2, Nat.sub_diag by lia. reflexivity.
        -- eapply A9; eauto.
      * intros x [<-|Hx].
        -- exists a, v. split; [now left|]. split; auto. split; [exact W2|]. repeat split. exact W3.
        -- destruct (A10 x Hx) as (a' & v' & X & Y & Z1). exists a', v'. split; [now right|auto].
Qed.
End P.

(** In any reachable data base and for any list of variables that exist: *)
Theorem C07_addduplicate : forall D d0 (os : list (vop D)) st v l postfix,
  no_restart D os -> vrun D d0 (vinit D) os = Ok st -> vl_is v l ->
  Forall (fun a => exists x, (0 <= a)%Z /\ nth_error (vdb D st) (Z.to_nat a) = Some x /\ List.length (v_name D x ++ postfix) <= 99) l ->
  exists st' newvl l' more, AddDuplicate D d0 v postfix st = Ok (st', newvl) /\ vl_is newvl l' /\ List.length l' = List.length l /\
    (* the duplicates have the names with the postfix, in the same order *)
    (forall i a b, nth_error l i = Some a -> nth_error l' i = Some b ->
       exists n, VarName D st a = Ok n /\ VarName D st' b = Ok (n ++ postfix)) /\
    (* what was there is unchanged; names stay unique and findable *)
    vdb D st' = vdb D st ++ more /\ NoDup (map (v_name D) (vdb D st')) /\
    (forall k x, nth_error (vdb D st') k = Some x -> Ind D st' (v_name D x) = Ok (Z.of_nat k)) /\
    (* each new variable is a copy of a variable in the list *)
    (forall w, In w more -> exists a x, In a l /\ nth_error (vdb D st) (Z.to_nat a) = Some x /\ v_name D w = v_name D x ++ postfix /\ copy_of D x w).
Proof.
  intros D d0 os st v l postfix NR H V F. destruct (Lay_run D d0 os _ [] _ (Lay_init D) eq_refl NR H) as [L R]. cbn [app] in L.
  destruct L as (_ & I & N). destruct (duplicate_ok v l V) as (u & U & (rest & UB & UN)). destruct V as (rest0 & VB & VN).
  unfold AddDuplicate. rewrite U. cbn [rbind]. rewrite VN.
  destruct (dup_ok D d0 (vdb D st) v postfix rest0 l VB l [] [] u rest st []) as (s' & nv & added & more & A1 & A2 & A3 & A4 & A5 & A6 & A7 & A8 & A9 & A10); auto.
  { now rewrite app_nil_r. }
  exists s', nv, added, more. split; [exact A1|]. split; [exact A2|]. split; [exact A3|]. split.
  - intros i a b Ha Hb. rewrite Forall_forall in F. destruct (F a (nth_error_In _ _ Ha)) as (x & X1 & X2 & X3).
    destruct (A9 i a b x Ha Hb X2) as (w & W1 & W2 & W3). exists (v_name D x).
    assert (VN' : forall s k y, (0 <= k)%Z -> nth_error (vdb D s) (Z.to_nat k) = Some y -> VarName D s k = Ok (v_name D y)).
    { intros s k y K Y. unfold VarName. assert (Z.to_nat k < List.length (vdb D s)) by (apply nth_error_Some; congruence).
      replace ((k <? 0)%Z || (k >=? nvdb D s)%Z) with false by (symmetry; apply orb_false_iff; split; [apply Z.ltb_ge; lia|rewrite Z.geb_leb; apply Z.leb_gt; unfold nvdb; lia]).
      unfold getvar. replace (k <? 0)%Z with false by (symmetry; apply Z.ltb_ge; lia). rewrite Y. reflexivity. }
    split; [now apply VN'|]. rewrite (VN' s' b w) by auto. now rewrite W3.
  - split; [exact A4|]. split; [exact A6|]. split; [|exact A10]. intros k x Hx. now apply Ind_found.
Qed.
Print Assumptions C07_addduplicate.
(** Non-vacuity: the duplicate of the first variable of the list exists already, as variable number 0. *)
Example C07_addduplicate_example : exists st st' newvl,
  vrun unit tt (vinit unit) [VAdd _ (S_ "u_p") [] []; VAdd _ (S_ "u") [] []; VAdd _ (S_ "v") (S_ "i") []] = Ok st /\
  AddDuplicate unit tt {| vl_buf := map Some [1; 2; 3; 4]%Z; vl_n := 4 |} (S_ "_p") st = Ok (st', newvl) /\ vl_is newvl [0; 5; 6; 7]%Z /\
  VarName unit st' 6 = Ok (S_ "vy_p") /\ IndComponent0 unit st' 6 = Ok 5%Z.
Proof.
  eexists _, _, _. split; [vm_compute; reflexivity|]. split; [vm_compute; reflexivity|]. split; [exists []; split; reflexivity|]. vm_compute. auto.
Qed.
