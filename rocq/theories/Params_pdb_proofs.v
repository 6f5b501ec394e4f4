(** Refinement of the parameter data base to a map (C02). *)
From Verif Require Import Base Params_model Params_spec Params_api_spec Params_parse_proofs Params_db_proofs.

Local Ltac inv H := inversion H; subst; clear H.

Local Ltac set_iS n := match goal with |- context [if ?b then 0 else ?e] => set (n := if b then 0 else e) end.

Section PDB.
Variable D : Type.
Variable atof : str -> D.
Variable atoi : str -> Z.
Variable fmt : str -> str.
Notation param := (param D).
Notation pdb_state := (pdb_state D).
Notation p_name := (p_name D).
Notation p_value := (p_value D).
Notation p_num := (p_num D).
Notation p_bool := (p_bool D).
Notation db := (db D).
Notation iStart := (iStart D).

Definition names (st : pdb_state) : list str := map p_name (db st).
(** Names are unique, there are fewer than npdbmax of them and the caches agree with the values. *)
Definition cache_ok (p : param) : Prop := p_num p = atof (p_value p) /\ p_bool p = boolvalue atoi (p_value p).
Definition Inv (st : pdb_state) : Prop :=
  NoDup (names st) /\ (Z.of_nat (List.length (db st)) < npdbmax)%Z /\ Forall cache_ok (db st).

Lemma scan_some (l : list param) i n k : scan D l i n = Some k ->
  exists p, i <= k /\ nth_error l (k - i) = Some p /\ p_name p = n.
Proof.
  revert i; induction l as [|p l IH]; intros i; simpl; [discriminate|].
  destruct (str_eqb_spec (p_name p) n) as [E|N].
  - intros [= <-]. exists p. rewrite Nat.sub_diag. auto.
  - intros H. destruct (IH _ H) as (q & L & Q & E). exists q. split; [lia|].
    replace (k - i) with (S (k - S i)) by lia. auto.
Qed.
Lemma scan_none (l : list param) i n : scan D l i n = None -> ~ In n (map p_name l).
Proof.
  revert i; induction l as [|p l IH]; intros i; simpl; [tauto|].
  destruct (str_eqb_spec (p_name p) n) as [E|N]; [discriminate|].
  intros H [K|K]; [contradiction|]. now apply (IH _ H).
Qed.

Lemma find_some st n k : findparameterindex D st n = Some k ->
  exists p, nth_error (db st) k = Some p /\ p_name p = n.
Proof.
  unfold findparameterindex.
  set_iS iS.
  destruct (scan D (skipn iS (db st)) iS n) as [k'|] eqn:E.
  - intros [= ->]. apply scan_some in E as (p & L & Q & E). exists p. split; auto.
    rewrite nth_error_skipn in Q. replace (iS + (k - iS)) with k in Q by lia. auto.
  - intros H. apply scan_some in H as (p & L & Q & H). rewrite Nat.sub_0_r in Q. exists p; split; auto.
    rewrite <- (firstn_skipn iS (db st)). rewrite nth_error_app1; auto.
    apply nth_error_Some. congruence.
Qed.
Lemma find_none st n : findparameterindex D st n = None <-> ~ In n (names st).
Proof.
  unfold findparameterindex, names.
  set_iS iS. split.
  - destruct (scan D (skipn iS (db st)) iS n) as [k'|] eqn:E; [discriminate|].
    intros H. apply scan_none in E. apply scan_none in H.
    rewrite <- (firstn_skipn iS (db st)), map_app, in_app_iff. tauto.
  - intros H. destruct (scan D (skipn iS (db st)) iS n) as [k'|] eqn:E.
    + destruct H. apply scan_some in E as (p & _ & Q & <-). apply in_map.
      apply nth_error_In in Q. rewrite <- (firstn_skipn iS (db st)). apply in_or_app; auto.
    + destruct (scan D (firstn iS (db st)) 0 n) as [k'|] eqn:F; auto.
      destruct H. apply scan_some in F as (p & _ & Q & <-). apply in_map.
      apply nth_error_In in Q. rewrite <- (firstn_skipn iS (db st)). apply in_or_app; auto.
Qed.

(** With unique names the search start does not matter. *)
Lemma find_unique st n p k : NoDup (names st) -> nth_error (db st) k = Some p -> p_name p = n ->
  findparameterindex D st n = Some k.
Proof.
  intros ND Hk Hn. destruct (findparameterindex D st n) as [j|] eqn:E.
  - apply find_some in E as (q & Hj & Hq). f_equal.
    apply (proj1 (NoDup_nth_error (names st)) ND).
    + unfold names. rewrite map_length. apply nth_error_Some. congruence.
    + unfold names. rewrite (map_nth_error _ _ _ Hk), (map_nth_error _ _ _ Hj). congruence.
  - apply find_none in E. destruct E. subst n. apply in_map. now apply nth_error_In in Hk.
Qed.

Definition lookup (st : pdb_state) (n : str) : option str := gets_lax D st n.

Lemma lookup_some st n v : lookup st n = Some v -> exists k p, nth_error (db st) k = Some p /\ p_name p = n /\ p_value p = v /\ findparameterindex D st n = Some k.
Proof.
  unfold lookup, gets_lax. destruct (findparameterindex D st n) as [k|] eqn:E; [|discriminate].
  destruct (find_some _ _ _ E) as (p & Hk & Hn). rewrite Hk. simpl. intros [= <-]. eauto 8.
Qed.
Lemma lookup_find st n : lookup st n = None <-> findparameterindex D st n = None.
Proof.
  unfold lookup, gets_lax. destruct (findparameterindex D st n) as [k|] eqn:E; [|tauto].
  destruct (find_some _ _ _ E) as (p & Hk & Hn). rewrite Hk. simpl. split; discriminate.
Qed.
Lemma lookup_nth st n k p : NoDup (names st) -> nth_error (db st) k = Some p -> p_name p = n -> lookup st n = Some (p_value p).
Proof. intros. unfold lookup, gets_lax. rewrite (find_unique st n p k) by auto. rewrite H0. auto. Qed.

(** lookup only depends on the list, not on iStart. *)
Lemma lookup_istart l i j n : NoDup (map p_name l) ->
  lookup {| Params_model.db := l; Params_model.iStart := i |} n = lookup {| Params_model.db := l; Params_model.iStart := j |} n.
Proof.
  intros ND. set (s1 := {| Params_model.db := l; Params_model.iStart := i |}). set (s2 := {| Params_model.db := l; Params_model.iStart := j |}).
  destruct (lookup s1 n) as [v|] eqn:E.
  - apply lookup_some in E as (k & p & Hk & Hn & <- & _). symmetry. apply (lookup_nth s2 n k p); auto.
  - apply lookup_find, find_none in E. symmetry. apply lookup_find, find_none. exact E.
Qed.

(** upd keeps names when the function keeps the name. *)
Lemma map_upd_same {A B} (f : A -> B) l k x y : nth_error l k = Some x -> f y = f x -> map f (upd l k y) = map f l.
Proof.
  revert k; induction l as [|a l IH]; intros [|k]; simpl; try discriminate.
  - intros [= ->] ->. auto.
  - intros H E. now rewrite (IH k).
Qed.
Lemma Forall_upd {A} (P : A -> Prop) l k y : Forall P l -> P y -> Forall P (upd l k y).
Proof. intros H Hy. revert k; induction H; intros [|k]; simpl; constructor; auto. Qed.

Definition Rel (st : pdb_state) (s : pmap * nat) : Prop :=
  Inv st /\ (forall n, lookup st n = fst s n) /\ List.length (db st) = snd s.

Lemma stored_translate v : translatevalue fmt v = stored fmt v.
Proof.
  unfold translatevalue, stored, is_pi_word.
  destruct (in_dec (list_eq_dec ascii_dec) v pi_words) as [H|H];
  destruct (existsb (str_eqb v) _) eqn:E; auto.
  - exfalso. apply Bool.not_true_iff_false in E. apply E. apply existsb_exists. exists v. split; auto. apply str_eqb_refl.
  - exfalso. apply H. apply existsb_exists in E as (x & Hx & E). apply str_eqb_eq in E. subst; auto.
Qed.

Lemma cache_mk n v d : cache_ok (mkparam D atof atoi fmt n v d).
Proof. split; reflexivity. Qed.

(** Changing one parameter in place. *)
Lemma setat_rel st s k p q : Rel st s -> nth_error (db st) k = Some p -> p_name q = p_name p -> cache_ok q ->
  Rel {| Params_model.db := upd (db st) k q; Params_model.iStart := iStart st |} (pset (fst s) (p_name p) (p_value q), snd s).
Proof.
  intros ((ND & Sz & Ca) & L & C) Hk Hn Hc.
  set (st' := {| Params_model.db := _; Params_model.iStart := _ |}).
  assert (N' : names st' = names st) by (apply (map_upd_same p_name) with (x := p); auto).
  assert (Hlt : k < List.length (db st)) by (apply nth_error_Some; congruence).
  assert (ND' : NoDup (names st')) by now rewrite N'.
  split; [|split].
  - split; [|split]; auto.
    + simpl. now rewrite upd_length.
    + apply Forall_upd; auto.
  - intros n. simpl fst. unfold pset. destruct (str_eqb_spec n (p_name p)) as [->|Nn].
    + apply (lookup_nth st' _ k q); auto. simpl. now apply nth_error_upd_eq.
    + rewrite <- L. destruct (lookup st n) as [v|] eqn:E.
      * apply lookup_some in E as (j & r & Hj & Hr & <- & _).
        apply (lookup_nth st' _ j r); auto. simpl.
        rewrite nth_error_upd_ne; auto. intros ->. rewrite Hk in Hj. inv Hj. now apply Nn.
      * apply lookup_find, find_none in E. apply lookup_find, find_none. now rewrite N'.
  - simpl. now rewrite upd_length.
Qed.

Lemma pset_same M n v : M n = Some v -> forall m, pset M n v m = M m.
Proof. intros H m. unfold pset. destruct (str_eqb_spec m n); subst; auto. Qed.

Definition same_out (r : res pdb_state) (s : res (pmap * nat)) : Prop :=
  match r, s with
  | Ok st, Ok s => Rel st s
  | Err, Err => True
  | UB, UB => True
  | _, _ => False
  end.

Lemma setparameter_rel st s n v : Rel st s ->
  same_out (setparameter D atof atoi fmt st n v)
    (match fst s n with Some _ => Ok (pset (fst s) n (stored fmt v), snd s) | None => Err end).
Proof.
  intros R. pose proof R as ((ND & Sz & Ca) & L & C). unfold setparameter.
  destruct (findparameterindex D st n) as [k|] eqn:E.
  - destruct (find_some _ _ _ E) as (p & Hk & Hn).
    rewrite <- L. rewrite (lookup_nth st n k p) by auto. simpl. unfold setat. rewrite Hk.
    subst n. pose proof (setat_rel st s k p (setval D atof atoi fmt p v) R Hk eq_refl (cache_mk _ _ _)) as Q.
    simpl in Q. rewrite stored_translate in Q. exact Q.
  - apply lookup_find in E. rewrite <- L, E. exact I.
Qed.

Lemma makeparameter_rel st s n v d : Rel st s ->
  same_out (makeparameter D atof atoi fmt st n v d) (pcreate fmt s n v).
Proof.
  intros R. pose proof R as ((ND & Sz & Ca) & L & C). unfold makeparameter, pcreate.
  destruct s as [M c]. simpl in L, C.
  destruct (findparameterindex D st n) as [k|] eqn:E.
  - destruct (find_some _ _ _ E) as (p & Hk & Hn).
    assert (Hl : M n = Some (p_value p)) by (rewrite <- L; apply (lookup_nth st n k p); auto).
    rewrite Hl. unfold setat. rewrite Hk. cbn [Params_model.db]. rewrite upd_length.
    replace (npdbmax <=? Z.of_nat (List.length (db st)))%Z with false by (symmetry; apply Z.leb_gt; auto).
    assert (Hc : cache_ok (setdesc D p d)).
    { assert (Hp : cache_ok p) by (apply (proj1 (Forall_forall _ _) Ca); now apply nth_error_In in Hk). exact Hp. }
    pose proof (setat_rel st (M, c) k p (setdesc D p d) R Hk eq_refl Hc) as (I1 & L1 & C1).
    split; [|split]; auto. intros m. rewrite L1. simpl. apply pset_same. now subst n.
  - pose proof E as E'. apply lookup_find in E. rewrite <- L, E. cbn [Params_model.db]. rewrite app_length. simpl List.length.
    rewrite Nat.add_1_r, C. unfold npdbmax.
    destruct (10000 <=? Z.of_nat (S c))%Z eqn:B; [exact I|].
    apply find_none in E'. 
    set (st' := {| Params_model.db := _; Params_model.iStart := _ |}).
    set (p := mkparam D atof atoi fmt n v d) in st'.
    assert (N' : names st' = names st ++ [n]) by (unfold names; simpl; now rewrite map_app).
    assert (ND' : NoDup (names st')).
    { rewrite N'. apply NoDup_rev in ND. rewrite <- (rev_involutive (names st ++ [n])). apply NoDup_rev.
      rewrite rev_app_distr. simpl. constructor; auto. rewrite <- in_rev. auto. }
    split; [|split].
    + split; [|split]; auto.
      * unfold npdbmax. simpl. rewrite app_length. simpl. apply Z.leb_gt in B. lia.
      * simpl. apply Forall_app; split; auto. constructor; auto. apply cache_mk.
    + intros m. simpl fst. unfold pset. destruct (str_eqb_spec m n) as [->|Nm].
      * rewrite <- stored_translate.
        apply (lookup_nth st' n (List.length (db st)) p); auto. simpl.
        rewrite nth_error_app2, Nat.sub_diag; auto.
      * rewrite <- L. destruct (lookup st m) as [w|] eqn:F.
        -- apply lookup_some in F as (j & r & Hj & Hr & <- & _). apply (lookup_nth st' m j r); auto.
           simpl. rewrite nth_error_app1; auto. apply nth_error_Some; congruence.
        -- apply lookup_find, find_none in F. apply lookup_find, find_none. rewrite N', in_app_iff. simpl. intuition.
    + simpl. rewrite app_length. simpl. lia.
Qed.

Lemma addormodify_rel st s n v d : Rel st s ->
  same_out (addormodify D atof atoi fmt st n v d) (passign fmt s n v).
Proof.
  intros R. pose proof R as (Iv & L & C). unfold addormodify, passign. destruct s as [M c]. simpl in L.
  destruct (findparameterindex D st n) as [k|] eqn:E.
  - pose proof (setparameter_rel st (M, c) n v R) as Q. simpl in Q.
    destruct (M n) eqn:F; auto. rewrite <- L in F. apply lookup_find in F. congruence.
  - pose proof (makeparameter_rel st (M, c) n v d R) as Q.
    apply lookup_find in E. rewrite L in E. rewrite E. exact Q.
Qed.

Lemma assign_all_rel l st s : Rel st s ->
  same_out (assign_all D atof atoi fmt st l) (passign_all fmt s l).
Proof.
  revert st s; induction l as [|[n v] l IH]; intros st s R; cbn [assign_all passign_all]; auto.
  pose proof (addormodify_rel st s n v (S_ "not in libs") R) as Q.
  destruct (addormodify D atof atoi fmt st n v (S_ "not in libs")) as [st1| |], (passign fmt s n v) as [s1| |]; cbn [same_out rbind] in *; auto; try contradiction.
Qed.

Lemma gets_rel st s n : Rel st s -> gets D st n = match fst s n with Some v => Ok v | None => Err end.
Proof. intros (_ & L & _). unfold gets. now rewrite <- L. Qed.

Notation spec_step := (spec_step fmt).
Notation spec_run := (spec_run fmt).

Lemma then_gets_rel r s n : same_out r s -> (forall s', s = Ok s' -> fst s' n <> None) ->
  same_out (then_gets D r n) s.
Proof.
  unfold then_gets. destruct r as [st| |], s as [s'| |]; simpl; auto; try contradiction.
  intros R H. rewrite (gets_rel st s' n R). destruct (fst s' n) eqn:E; simpl; auto.
  now apply (H s' eq_refl).
Qed.
Lemma pset_hit M n v : pset M n v n <> None.
Proof. unfold pset. rewrite str_eqb_refl. discriminate. Qed.
Lemma pcreate_hit s n v s' : pcreate fmt s n v = Ok s' -> fst s' n <> None.
Proof.
  unfold pcreate. destruct s as [M c]. destruct (M n) eqn:E.
  - intros [= <-]. simpl. congruence.
  - destruct (10000 <=? Z.of_nat (S c))%Z; [discriminate|]. intros [= <-]. simpl. apply pset_hit.
Qed.
Lemma passign_hit s n v s' : passign fmt s n v = Ok s' -> fst s' n <> None.
Proof.
  unfold passign. destruct s as [M c]. destruct (M n) eqn:E.
  - intros [= <-]. simpl. apply pset_hit.
  - apply pcreate_hit.
Qed.

Lemma rel_init : Rel (pdb_init D) (pempty, 0).
Proof.
  split; [|split]; auto. split; [|split].
  - constructor.
  - reflexivity.
  - constructor.
Qed.

Lemma step_rel st s o : Rel st s -> same_out (pstep D atof atoi fmt st o) (spec_step s o).
Proof.
  intros R. destruct o as [n v d|n v d|n v|n v|n|f|]; unfold pstep, Params_api_spec.spec_step.
  - apply then_gets_rel; [now apply makeparameter_rel|]. intros s'. apply pcreate_hit.
  - apply then_gets_rel; [now apply addormodify_rel|]. intros s'. apply passign_hit.
  - now apply setparameter_rel.
  - unfold appends. rewrite (gets_rel st s n R).
    pose proof (setparameter_rel st s n) as Q. destruct (fst s n) as [old|]; simpl; auto.
    destruct (getv old v); auto.
  - unfold set_istart. pose proof R as ((ND & Sz & Ca) & L & C).
    destruct (findparameterindex D st n) as [k|] eqn:E.
    + destruct (fst s n) eqn:F.
      * simpl. split; [|split]; auto.
        -- repeat split; auto.
        -- intros m. rewrite <- L. destruct st as [l0 i0]. simpl in *. now apply lookup_istart.
      * rewrite <- L in F. apply lookup_find in F. congruence.
    + apply lookup_find in E. rewrite L in E. now rewrite E.
  - unfold parse_parameter_file. destruct (parse_text f); simpl; auto. now apply assign_all_rel.
  - simpl. apply rel_init.
Qed.

Lemma run_rel os st s : Rel st s -> same_out (prun D atof atoi fmt st os) (spec_run s os).
Proof.
  revert st s; induction os as [|o os IH]; intros st s R; simpl; auto.
  pose proof (step_rel st s o R) as Q.
  destruct (pstep D atof atoi fmt st o) as [st1| |], (spec_step s o) as [s1| |]; cbn [same_out rbind] in *; auto; try contradiction.
Qed.

Lemma run_init os : same_out (prun D atof atoi fmt (pdb_init D) os) (spec_run (pempty, 0) os).
Proof. apply run_rel, rel_init. Qed.

(** Self assignment Sets(x,Gets(x)) is undefined behaviour. *)
Lemma sets_self_ub st n v : gets D st n = Ok v -> sets_from_gets D atof atoi fmt st n n = UB.
Proof.
  intros H. unfold sets_from_gets. rewrite H. unfold gets, gets_lax in H.
  destruct (findparameterindex D st n); [|discriminate]. now rewrite Nat.eqb_refl.
Qed.
Lemma sets_other st n m v : NoDup (names st) -> n <> m -> gets D st m = Ok v ->
  sets_from_gets D atof atoi fmt st n m = setparameter D atof atoi fmt st n v.
Proof.
  intros ND N H. unfold sets_from_gets. rewrite H.
  destruct (findparameterindex D st n) as [i|] eqn:E1, (findparameterindex D st m) as [j|] eqn:E2; auto.
  destruct (Nat.eqb_spec i j) as [->|]; auto.
  apply find_some in E1 as (p & Hp & <-). apply find_some in E2 as (q & Hq & <-). congruence.
Qed.

Lemma passign_all_get l s s' n : passign_all fmt s l = Ok s' ->
  fst s' n = match last_value l n with Some v => Some (stored fmt v) | None => fst s n end.
Proof.
  revert s; induction l as [|[m v] l IH]; intros s; simpl.
  - intros [= ->]. auto.
  - destruct (passign fmt s m v) as [s1| |] eqn:E; simpl; try discriminate.
    intros H. rewrite (IH _ H). destruct (last_value l n); auto.
    assert (E1 : forall k, fst s1 k = pset (fst s) m (stored fmt v) k).
    { unfold passign, pcreate in E. destruct s as [M c]. destruct (M m) eqn:F.
      - inv E. auto.
      - destruct (10000 <=? Z.of_nat (S c))%Z; inv E. auto. }
    rewrite E1. unfold pset. 
    destruct (str_eqb_spec m n) as [->|N]; [now rewrite str_eqb_refl|].
    rewrite str_eqb_neq by congruence. auto.
Qed.
End PDB.
