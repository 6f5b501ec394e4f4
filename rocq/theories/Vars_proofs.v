(** Lemmas for the variable registry (C05, C06). *)
From Verif Require Import Base Tensors_model Tensors_spec Tensors_proofs Vars_model Vars_spec Vars_api_spec.

Section P.
Variable D : Type.
Variable d0 : D.
Notation var := (var D).
Notation vstate := (vstate D).
Notation v_name := (v_name D). Notation v_comp := (v_comp D). Notation v_ncomp := (v_ncomp D).
Notation v_index := (v_index D). Notation v_const := (v_const D).
Notation vdb := (vdb D). Notation vStart := (vStart D). Notation restarts := (restarts D).
Notation nvdb := (nvdb D). Notation getvar := (getvar D). Notation setvar := (setvar D).

Definition view (v : var) : str * Z * Z := (v_name v, v_comp v, v_ncomp v).
Definition E (e : entry) : str * Z * Z :=
  (cut99 (fst (fst e)), Z.of_nat (snd (fst e)), Z.of_nat (snd e)).
Definition indexed (l : list var) : Prop :=
  forall k v, nth_error l k = Some v -> v_index v = Z.of_nat k.
Definition Lay (s : vstate) (ds : list decl) : Prop :=
  map view (vdb s) = map E (registry ds) /\ indexed (vdb s) /\ NoDup (map v_name (vdb s)).

(** ** registry structure *)
Lemma nth_error_combine_seq {A} (l : list A) k b x :
  nth_error l k = Some x -> nth_error (combine (seq b (List.length l)) l) k = Some (b + k, x).
Proof.
  revert k b. induction l as [|y l IH]; intros [|k] b H; simpl in *; try discriminate.
  - injection H as ->. now rewrite Nat.add_0_r.
  - rewrite (IH k (S b)); auto. do 2 f_equal. lia.
Qed.
Lemma combine_seq_length {A} (l : list A) b : List.length (combine (seq b (List.length l)) l) = List.length l.
Proof. rewrite combine_length, seq_length. lia. Qed.
Lemma group_length d : List.length (group d) = List.length (snd d).
Proof. unfold group. now rewrite map_length, combine_seq_length. Qed.
Lemma group_nth d k : k < List.length (snd d) ->
  nth_error (group d) k = Some (fst d ++ nth k (snd d) [], k, List.length (snd d)).
Proof.
  intros H. unfold group. destruct (nth_error (snd d) k) as [x|] eqn:Ex.
  - rewrite nth_error_map, (nth_error_combine_seq _ _ _ _ Ex). simpl.
    now rewrite (nth_error_nth _ _ _ Ex).
  - apply nth_error_None in Ex. lia.
Qed.
Lemma registry_app a b : registry (a ++ b) = registry a ++ registry b.
Proof. apply flat_map_app. Qed.
Lemma registry_group ds k f j n : nth_error (registry ds) k = Some (f, j, n) ->
  j <= k /\ j < n /\ forall i, i < n -> exists f', nth_error (registry ds) (k - j + i) = Some (f', i, n).
Proof.
  revert k. induction ds as [|d ds IH]; intros k H.
  - destruct k; discriminate.
  - simpl in H. destruct (Nat.lt_ge_cases k (List.length (group d))) as [L|L].
    + rewrite nth_error_app1 in H by auto. rewrite group_length in L. rewrite group_nth in H by auto.
      injection H as <- <- <-. split; [lia|]. split; [auto|]. intros i Hi.
      replace (k - k + i) with i by lia. simpl. rewrite nth_error_app1 by (now rewrite group_length).
      rewrite group_nth by auto. eauto.
    + rewrite nth_error_app2 in H by auto. apply IH in H as (A & B & C). split; [lia|]. split; [auto|].
      intros i Hi. destruct (C i Hi) as [f' Hf]. exists f'. simpl. rewrite nth_error_app2 by lia.
      rewrite <- Hf. f_equal. lia.
Qed.

(** ** data base accesses *)
Lemma getvar_nth s k v : nth_error (vdb s) k = Some v -> getvar s (Z.of_nat k) = Ok v.
Proof.
  intros H. unfold Vars_model.getvar. replace (Z.of_nat k <? 0)%Z with false by (symmetry; apply Z.ltb_ge; lia).
  now rewrite Nat2Z.id, H.
Qed.
Lemma getvar_ok s i v : getvar s i = Ok v -> (0 <= i)%Z /\ nth_error (vdb s) (Z.to_nat i) = Some v.
Proof.
  unfold Vars_model.getvar. destruct (i <? 0)%Z eqn:L; [discriminate|]. apply Z.ltb_ge in L.
  destruct (nth_error (vdb s) (Z.to_nat i)); intros H; try discriminate. now injection H as ->.
Qed.

Lemma in_names_existsb (l : list var) full :
  existsb (fun v => str_eqb (v_name v) full) l = true <-> In full (map v_name l).
Proof.
  rewrite existsb_exists, in_map_iff. split; intros (v & A & B).
  - exists v. apply str_eqb_eq in B. auto.
  - exists v. split; auto. now apply str_eqb_eq.
Qed.

Lemma find_from_some (l : list var) name i : find_from D l name = Some i ->
  exists k v, nth_error l k = Some v /\ v_name v = name /\ v_index v = i.
Proof.
  unfold find_from. destruct (find _ l) as [v|] eqn:F; [|discriminate]. intros [= <-].
  apply find_some in F as [I Eq]. apply str_eqb_eq in Eq. apply In_nth_error in I as [k Hk]. eauto.
Qed.
Lemma find_from_none (l : list var) name : find_from D l name = None <-> ~ In name (map v_name l).
Proof.
  unfold find_from. destruct (find _ l) as [v|] eqn:F.
  - split; [discriminate|]. apply find_some in F as [I Eq]. apply str_eqb_eq in Eq. intros N. exfalso. apply N.
    apply in_map_iff. eauto.
  - split; auto. intros _ H. apply in_map_iff in H as (v & <- & H). apply (find_none _ _ F) in H.
    rewrite str_eqb_refl in H. discriminate.
Qed.
Lemma NoDup_nth_name (l : list var) j k v w : NoDup (map v_name l) ->
  nth_error l j = Some v -> nth_error l k = Some w -> v_name v = v_name w -> j = k.
Proof.
  intros N Hv Hw Eq. apply (proj1 (NoDup_nth_error (map v_name l)) N).
  - rewrite map_length. apply nth_error_Some. congruence.
  - rewrite !nth_error_map, Hv, Hw. simpl. now rewrite Eq.
Qed.

Definition with_start (s : vstate) (i : Z) : vstate := {| Vars_model.vdb := vdb s; Vars_model.vStart := i; Vars_model.restarts := restarts s |}.

Lemma IndLax_found s k v : indexed (vdb s) -> NoDup (map v_name (vdb s)) ->
  nth_error (vdb s) k = Some v -> IndLax D s (v_name v) = Z.of_nat k.
Proof.
  intros I N H. unfold IndLax.
  set (m := Z.to_nat _).
  assert (Sk : forall j w, nth_error (skipn m (vdb s)) j = Some w -> nth_error (vdb s) (m + j) = Some w).
  { intros j w Hj. rewrite <- (firstn_skipn m (vdb s)). destruct (Nat.le_gt_cases m (List.length (vdb s))) as [L|L].
    - rewrite nth_error_app2; rewrite firstn_length, Nat.min_l by auto; [|lia].
      now replace (m + j - m) with j by lia.
    - rewrite skipn_all2 in Hj by lia. destruct j; discriminate. }
  assert (Fk : forall j w, nth_error (firstn m (vdb s)) j = Some w -> nth_error (vdb s) j = Some w).
  { intros j w Hj. rewrite <- (firstn_skipn m (vdb s)). rewrite nth_error_app1; auto.
    apply nth_error_Some. congruence. }
  destruct (find_from D (skipn m (vdb s)) (v_name v)) as [i|] eqn:F1.
  - apply find_from_some in F1 as (j & w & Hj & Hn & <-). apply Sk in Hj.
    rewrite (I _ _ Hj). f_equal. eapply NoDup_nth_name; eauto.
  - destruct (find_from D (firstn m (vdb s)) (v_name v)) as [i|] eqn:F2.
    + apply find_from_some in F2 as (j & w & Hj & Hn & <-). apply Fk in Hj.
      rewrite (I _ _ Hj). f_equal. eapply NoDup_nth_name; eauto.
    + exfalso. apply find_from_none in F1, F2. apply nth_error_In in H.
      rewrite <- (firstn_skipn m (vdb s)) in H. apply in_app_or in H as [H|H];
      [apply F2|apply F1]; now apply in_map.
Qed.
Lemma IndLax_absent s name : ~ In name (map v_name (vdb s)) -> IndLax D s name = (-1)%Z.
Proof.
  intros H. unfold IndLax. set (m := Z.to_nat _).
  assert (A : find_from D (skipn m (vdb s)) name = None).
  { apply find_from_none. intros C. apply H. rewrite <- (firstn_skipn m (vdb s)), map_app. apply in_or_app. auto. }
  assert (B : find_from D (firstn m (vdb s)) name = None).
  { apply find_from_none. intros C. apply H. rewrite <- (firstn_skipn m (vdb s)), map_app. apply in_or_app. auto. }
  now rewrite A, B.
Qed.
Lemma Ind_found s k v : indexed (vdb s) -> NoDup (map v_name (vdb s)) ->
  nth_error (vdb s) k = Some v -> Ind D s (v_name v) = Ok (Z.of_nat k).
Proof.
  intros I N H. unfold Ind. rewrite (IndLax_found s k v); auto.
  replace (Z.of_nat k <? 0)%Z with false; auto. symmetry. apply Z.ltb_ge. lia.
Qed.
Lemma Ind_absent s name : ~ In name (map v_name (vdb s)) -> Ind D s name = Err.
Proof. intros H. unfold Ind. rewrite IndLax_absent; auto. Qed.
Lemma Ind_ok s name i : indexed (vdb s) -> NoDup (map v_name (vdb s)) -> Ind D s name = Ok i ->
  exists k v, i = Z.of_nat k /\ nth_error (vdb s) k = Some v /\ v_name v = name.
Proof.
  intros I N H. destruct (in_dec (list_eq_dec ascii_dec) name (map v_name (vdb s))) as [Hi|Hi].
  - apply in_map_iff in Hi as (v & <- & Hi). apply In_nth_error in Hi as [k Hk].
    rewrite (Ind_found s k v) in H by auto. injection H as <-. eauto.
  - rewrite Ind_absent in H by auto. discriminate.
Qed.

(** ** one AddVar call *)
Lemma loop_restarts name t d nil_ sym : forall il j s s',
  addvar_loop D d0 name t d nil_ sym j il s = Ok s' ->
  restarts s' = restarts s /\ vStart s' = vStart s.
Proof.
  induction il as [|x il IH]; intros j s s' H; simpl in H.
  - now injection H as <-.
  - unfold addvar1 in H. destruct (existsb _ _); simpl in H.
    + destruct (restarts s =? 0); simpl in H; [discriminate|]. eauto.
    + apply IH in H. auto.
Qed.

Lemma loop_fresh name t d nil_ sym : forall il j s s', restarts s = 0 ->
  addvar_loop D d0 name t d nil_ sym j il s = Ok s' ->
  exists new_,
    vdb s' = vdb s ++ new_ /\
    map view new_ = map (fun js => (cut99 (name ++ snd js), Z.of_nat (fst js), Z.of_nat nil_))
                        (combine (seq j (List.length il)) il) /\
    (indexed (vdb s) -> indexed (vdb s')) /\
    (NoDup (map v_name (vdb s)) -> NoDup (map v_name (vdb s'))) /\
    Forall (fun v => v_const v = 0%Z) new_.
Proof.
  induction il as [|x il IH]; intros j s s' R H; cbn [addvar_loop] in H.
  - injection H as <-. exists []. rewrite app_nil_r. auto 10.
  - unfold addvar1 in H. destruct (existsb _ _) eqn:Ex.
    + rewrite R in H. discriminate.
    + cbn [rbind] in H.
      set (v0 := {| Vars_model.v_name := fullname name x |}) in H.
      set (s1 := {| Vars_model.vdb := vdb s ++ [v0] |}) in H.
      apply (IH (S j) s1 s' R) in H as (new_ & A & B & I & N & C).
      exists (v0 :: new_). cbn [map combine seq List.length]. rewrite B. repeat split; auto.
      * rewrite A. unfold s1. simpl. now rewrite <- app_assoc.
      * intros I0. apply I. unfold s1. simpl. intros k v Hk.
        destruct (Nat.lt_ge_cases k (List.length (vdb s))) as [L|L].
        { rewrite nth_error_app1 in Hk by auto. auto. }
        rewrite nth_error_app2 in Hk by auto. destruct (k - List.length (vdb s)) as [|q] eqn:Eq.
        { injection Hk as <-. simpl. unfold Vars_model.nvdb. f_equal. lia. }
        destruct q; discriminate.
      * intros N0. apply N. unfold s1. simpl. rewrite map_app. simpl.
        apply NoDup_rev in N0. rewrite <- (rev_involutive (_ ++ _)). apply NoDup_rev.
        rewrite rev_app_distr. simpl. constructor; auto.
        rewrite <- in_rev. intros Hi. apply not_true_iff_false in Ex. apply Ex.
        apply in_names_existsb. exact Hi.
Qed.

Lemma AddVar_fresh name t d s s' : restarts s = 0 -> AddVar D d0 name t d s = Ok s' ->
  exists il sym new_, tensorindexlist t = Ok (il, sym) /\
    vdb s' = vdb s ++ new_ /\ map view new_ = map E (group (name, il)) /\
    (indexed (vdb s) -> indexed (vdb s')) /\
    (NoDup (map v_name (vdb s)) -> NoDup (map v_name (vdb s'))) /\
    Forall (fun v => v_const v = 0%Z) new_ /\ restarts s' = 0 /\ vStart s' = vStart s.
Proof.
  intros R H. unfold AddVar in H. destruct (tensorindexlist t) as [[il sym]| |]; try discriminate.
  cbn [rbind] in H. pose proof (loop_restarts _ _ _ _ _ _ _ _ _ H) as [R' V'].
  apply loop_fresh in H as (new_ & A & B & I & N & C); auto.
  exists il, sym, new_. repeat split; auto; [|congruence].
  rewrite B. unfold group. rewrite map_map. apply map_ext. intros [j x]. reflexivity.
Qed.

Lemma til_nonempty t il sym : tensorindexlist t = Ok (il, sym) -> il <> [].
Proof.
  unfold tensorindexlist. destruct (run_cases _ _ _) as [s| |]; try discriminate. cbn [rbind].
  destruct (t_n s =? 0) eqn:Eq; [discriminate|]. intros [= <- _]. intros N. unfold t_n in Eq. rewrite N in Eq. discriminate.
Qed.

(** ** queries in terms of the layout *)
Lemma Lay_nth s ds k v : Lay s ds -> nth_error (vdb s) k = Some v ->
  exists e, nth_error (registry ds) k = Some e /\ view v = E e.
Proof.
  intros (M & _) H. assert (nth_error (map view (vdb s)) k = Some (view v)) as Q by (rewrite nth_error_map, H; auto).
  rewrite M, nth_error_map in Q. destruct (nth_error (registry ds) k) as [e|]; [|discriminate].
  exists e. split; auto. cbn [option_map] in Q. congruence.
Qed.
Lemma Lay_nth' s ds k e : Lay s ds -> nth_error (registry ds) k = Some e ->
  exists v, nth_error (vdb s) k = Some v /\ view v = E e.
Proof.
  intros (M & _) H. assert (nth_error (map E (registry ds)) k = Some (E e)) as Q by (rewrite nth_error_map, H; auto).
  rewrite <- M, nth_error_map in Q. destruct (nth_error (vdb s) k) as [v|]; [|discriminate].
  exists v. split; auto. cbn [option_map] in Q. congruence.
Qed.
Lemma Lay_len s ds : Lay s ds -> List.length (vdb s) = List.length (registry ds).
Proof. intros (M & _). rewrite <- (map_length view), M, map_length. auto. Qed.

Lemma query_comp0 s ds k f j n : Lay s ds -> nth_error (registry ds) k = Some (f, j, n) ->
  IndComponent0 D s (Z.of_nat k) = Ok (Z.of_nat (k - j)).
Proof.
  intros L H. pose proof (registry_group _ _ _ _ _ H) as (A & _).
  destruct (Lay_nth' _ _ _ _ L H) as (v & Hv & Ev). unfold view, E in Ev. simpl in Ev. injection Ev as E1 E2 E3.
  unfold IndComponent0. rewrite (getvar_nth _ _ _ Hv). cbn [rbind]. rewrite E2. f_equal. lia.
Qed.
Lemma query_ncomp s ds k f j n : Lay s ds -> nth_error (registry ds) k = Some (f, j, n) ->
  VarNComponents D s (Z.of_nat k) = Ok (Z.of_nat n).
Proof.
  intros L H. pose proof (registry_group _ _ _ _ _ H) as (A & B & C).
  destruct (Lay_nth' _ _ _ _ L H) as (v & Hv & Ev). injection Ev as E1 E2 E3.
  unfold VarNComponents.
  assert (k < List.length (vdb s)) as Lk by (apply nth_error_Some; congruence).
  replace (_ || _) with false.
  2:{ symmetry. apply orb_false_iff. split; [apply Z.ltb_ge; lia|].
      rewrite Z.geb_leb. apply Z.leb_gt. unfold Vars_model.nvdb. lia. }
  simpl in E2, E3. rewrite (getvar_nth _ _ _ Hv). cbn [rbind]. rewrite E2.
  destruct (Z.of_nat j =? 0)%Z eqn:Z0; cbn [rbind].
  - rewrite (getvar_nth _ _ _ Hv). cbn [rbind]. now rewrite E3.
  - rewrite (query_comp0 _ _ _ _ _ _ L H). cbn [rbind].
    destruct (C 0 ltac:(lia)) as [f' Hf]. rewrite Nat.add_0_r in Hf.
    destruct (Lay_nth' _ _ _ _ L Hf) as (w & Hw & Ew). injection Ew as _ _ W.
    rewrite (getvar_nth _ _ _ Hw). cbn [rbind]. now rewrite W.
Qed.
Lemma query_name s ds k f j n : Lay s ds -> nth_error (registry ds) k = Some (f, j, n) ->
  VarName D s (Z.of_nat k) = Ok (cut99 f).
Proof.
  intros L H. destruct (Lay_nth' _ _ _ _ L H) as (v & Hv & Ev). injection Ev as E1 E2 E3.
  assert (k < List.length (vdb s)) as Lk by (apply nth_error_Some; congruence).
  unfold VarName. replace (_ || _) with false.
  2:{ symmetry. apply orb_false_iff. split; [apply Z.ltb_ge; lia|].
      rewrite Z.geb_leb. apply Z.leb_gt. unfold Vars_model.nvdb. lia. }
  rewrite (getvar_nth _ _ _ Hv). cbn [rbind]. now rewrite E1.
Qed.
Lemma query_ind s ds k f j n : Lay s ds -> nth_error (registry ds) k = Some (f, j, n) ->
  Ind D s (cut99 f) = Ok (Z.of_nat k).
Proof.
  intros L H. destruct (Lay_nth' _ _ _ _ L H) as (v & Hv & Ev). injection Ev as E1 E2 E3.
  simpl in E1. rewrite <- E1. destruct L as (_ & I & N). now apply Ind_found.
Qed.
Lemma Lay_start s ds i : Lay s ds -> Lay (with_start s i) ds.
Proof. intros H. exact H. Qed.

(** ** updates that keep names and components *)
Definition same_view (v w : var) : Prop := view v = view w /\ v_index v = v_index w.
Lemma map_upd {A B} (f : A -> B) l i x : (forall y, nth_error l i = Some y -> f x = f y) -> map f (upd l i x) = map f l.
Proof.
  revert i. induction l as [|y l IH]; intros [|i] H; simpl; auto.
  - now rewrite (H y eq_refl).
  - now rewrite IH.
Qed.
Lemma Lay_setvar s ds i v w s' : Lay s ds -> getvar s i = Ok v -> setvar s i w = Ok s' ->
  same_view v w -> Lay s' ds /\ restarts s' = restarts s /\ vdb s' = upd (vdb s) (Z.to_nat i) w.
Proof.
  intros (M & I & N) G S' [V X]. apply getvar_ok in G as [P G]. unfold Vars_model.setvar in S'.
  destruct (i <? 0)%Z; [discriminate|]. destruct (i <? nvdb s)%Z; [|discriminate]. injection S' as <-.
  simpl. repeat split; auto.
  - simpl. rewrite map_upd; auto. intros y Hy. congruence.
  - intros k u Hu. simpl in Hu. destruct (Nat.eq_dec k (Z.to_nat i)) as [->|NE].
    + rewrite nth_error_upd_eq in Hu by (apply nth_error_Some; congruence). injection Hu as <-.
      rewrite <- X. now apply I.
    + rewrite nth_error_upd_ne in Hu by auto. now apply I.
  - simpl. rewrite map_upd; auto. intros y Hy. rewrite G in Hy. injection Hy as ->.
    unfold view in V. now injection V as -> _ _.
Qed.

(** const_loop sets exactly vdb[i..i+k-1] *)
Lemma const_loop_spec k : forall s ds i s', Lay s ds -> (0 <= i)%Z -> const_loop D k i s = Ok s' ->
  Lay s' ds /\ restarts s' = restarts s /\ List.length (vdb s') = List.length (vdb s) /\
  forall j v, nth_error (vdb s) j = Some v ->
    nth_error (vdb s') j =
      Some (if (i <=? Z.of_nat j)%Z && (Z.of_nat j <? i + Z.of_nat k)%Z then with_const D v else v).
Proof.
  induction k as [|k IH]; intros s ds i s' L Pi H; simpl in H.
  - injection H as <-. repeat split; auto; try apply L. intros j v Hj. rewrite Hj. f_equal.
    destruct (Z.leb_spec i (Z.of_nat j)), (Z.ltb_spec (Z.of_nat j) (i + Z.of_nat 0)); simpl; auto; lia.
  - destruct (getvar s i) as [v| |] eqn:G; try discriminate. cbn [rbind] in H.
    destruct (setvar s i (with_const D v)) as [s1| |] eqn:S1; try discriminate. cbn [rbind] in H.
    destruct (Lay_setvar _ _ _ _ _ _ L G S1) as (L1 & R1 & U1). { now split. }
    apply (IH s1 ds (i + 1)%Z s' L1 ltac:(lia)) in H as (L2 & R2 & Len & Q).
    apply getvar_ok in G as [_ G].
    repeat split; try apply L2; try congruence.
    { rewrite Len, U1. apply upd_length. }
    intros j w Hj. destruct (Nat.eq_dec j (Z.to_nat i)) as [->|NE].
    + rewrite Hj in G. injection G as ->. rewrite (Q _ (with_const D v)).
      2:{ rewrite U1. apply nth_error_upd_eq. apply nth_error_Some. congruence. }
      f_equal. rewrite Z2Nat.id by auto.
      destruct (Z.leb_spec (i + 1) i), (Z.leb_spec i i), (Z.ltb_spec i (i + Z.of_nat (S k))); simpl; auto; try lia.
    + rewrite (Q j w). 2:{ rewrite U1. rewrite nth_error_upd_ne; auto. }
      f_equal. assert (Z.of_nat j <> i) by lia.
      destruct (Z.leb_spec (i + 1) (Z.of_nat j)), (Z.leb_spec i (Z.of_nat j)),
        (Z.ltb_spec (Z.of_nat j) (i + 1 + Z.of_nat k)), (Z.ltb_spec (Z.of_nat j) (i + Z.of_nat (S k))); simpl; auto; lia.
Qed.

Lemma const_loop_total k : forall s i, (0 <= i)%Z -> (i + Z.of_nat k <= nvdb s)%Z ->
  exists s', const_loop D k i s = Ok s'.
Proof.
  induction k as [|k IH]; intros s i Pi Hi; simpl; eauto.
  unfold Vars_model.nvdb in Hi.
  destruct (nth_error (vdb s) (Z.to_nat i)) as [v|] eqn:G.
  2:{ apply nth_error_None in G. lia. }
  assert (getvar s i = Ok v) as ->.
  { rewrite <- (Z2Nat.id i) by auto. now apply getvar_nth. }
  cbn [rbind]. unfold Vars_model.setvar, Vars_model.nvdb.
  replace (i <? 0)%Z with false by (symmetry; apply Z.ltb_ge; lia).
  replace (i <? _)%Z with true by (symmetry; apply Z.ltb_lt; lia). cbn [rbind].
  apply IH; [lia|]. unfold Vars_model.nvdb. simpl. rewrite upd_length. lia.
Qed.

(** SetConstantFlag marks exactly the group of the named variable. *)
Lemma SetConstantFlag_spec s ds k f j n : Lay s ds -> nth_error (registry ds) k = Some (f, j, n) ->
  exists s', SetConstantFlag D (cut99 f) s = Ok s' /\ Lay s' ds /\ restarts s' = restarts s /\
   List.length (vdb s') = List.length (vdb s) /\
   forall i v, nth_error (vdb s) i = Some v ->
     nth_error (vdb s') i = Some (if (k - j <=? i) && (i <? k - j + n) then with_const D v else v).
Proof.
  intros L H. pose proof (registry_group _ _ _ _ _ H) as (A & B & C). unfold SetConstantFlag.
  rewrite (query_ind _ _ _ _ _ _ L H). cbn [rbind]. rewrite (query_comp0 _ _ _ _ _ _ L H). cbn [rbind].
  destruct (C 0 ltac:(lia)) as [f' Hf]. rewrite Nat.add_0_r in Hf.
  rewrite (query_ncomp _ _ _ _ _ _ L Hf). cbn [rbind]. rewrite Nat2Z.id.
  assert (k - j + n <= List.length (registry ds)) as Hn.
  { destruct (C (n - 1) ltac:(lia)) as [f2 Hf2]. assert (k - j + (n - 1) < List.length (registry ds)).
    { apply nth_error_Some. congruence. } lia. }
  destruct (const_loop_total n s (Z.of_nat (k - j))) as [s' Hs']; [lia| |].
  { unfold Vars_model.nvdb. rewrite (Lay_len _ _ L). lia. }
  exists s'. split; auto. destruct (const_loop_spec n s ds (Z.of_nat (k - j)) s' L ltac:(lia) Hs') as (L' & R' & Len & Q).
  repeat split; try apply L'; auto. intros i v Hi. rewrite (Q i v Hi). f_equal.
  destruct (Z.leb_spec (Z.of_nat (k - j)) (Z.of_nat i)), (Nat.leb_spec (k - j) i),
   (Z.ltb_spec (Z.of_nat i) (Z.of_nat (k - j) + Z.of_nat n)), (Nat.ltb_spec i (k - j + n)); simpl; auto; lia.
Qed.

(** ** histories *)
Notation decl_of := (decl_of D). Notation decls := (decls D). Notation no_restart := (no_restart D).
Lemma Lay_add s ds name t d s' : Lay s ds -> restarts s = 0 -> AddVar D d0 name t d s = Ok s' ->
  Lay s' (ds ++ [(name, comps_of t)]) /\ restarts s' = 0 /\
  exists new_, vdb s' = vdb s ++ new_ /\ List.length new_ = List.length (comps_of t) /\
    comps_of t <> [] /\ Forall (fun v => v_const v = 0%Z) new_.
Proof.
  intros (M & I & N) R H. apply AddVar_fresh in H as (il & sym & new_ & T & A & B & I' & N' & C & R' & _); auto.
  unfold comps_of. rewrite T. split; [|split; auto].
  - split; [|split; auto]. rewrite A, map_app, M, B. rewrite registry_app, map_app. simpl. now rewrite app_nil_r.
  - exists new_. repeat split; auto.
    + rewrite <- (map_length view), B, map_length. now rewrite group_length.
    + eapply til_nonempty; eauto.
Qed.

Lemma Lay_addconst s ds name t d s' : Lay s ds -> restarts s = 0 -> AddConstantVar D d0 name t d s = Ok s' ->
  Lay s' (ds ++ [(name, comps_of t)]) /\ restarts s' = 0 /\
  List.length (vdb s') = List.length (vdb s) + List.length (comps_of t) /\
  (forall i v, nth_error (vdb s) i = Some v -> nth_error (vdb s') i = Some v) /\
  (forall i v, List.length (vdb s) <= i -> nth_error (vdb s') i = Some v -> v_const v = 1%Z).
Proof.
  intros L R H. unfold AddConstantVar in H. destruct (AddVar D d0 name t d s) as [s1| |] eqn:A; try discriminate.
  cbn [rbind] in H. destruct (Lay_add _ _ _ _ _ _ L R A) as (L1 & R1 & new_ & V & Ln & Nn & Cn).
  set (m := List.length (vdb s)) in *. set (c := List.length (comps_of t)) in *.
  assert (Pc : 0 < c) by (unfold c; destruct (comps_of t); simpl; [congruence|lia]).
  assert (Ls1 : List.length (vdb s1) = m + c) by (rewrite V, app_length; fold m; lia).
  assert (Rm : List.length (registry ds) = m) by (symmetry; apply Lay_len; auto).
  assert (Hreg : nth_error (registry (ds ++ [(name, comps_of t)])) (m + (c - 1))
                 = Some (name ++ nth (c - 1) (comps_of t) [], c - 1, c)).
  { rewrite registry_app, nth_error_app2 by lia. rewrite Rm. replace (m + (c - 1) - m) with (c - 1) by lia.
    simpl. rewrite app_nil_r. rewrite group_nth; [reflexivity|]. simpl. unfold c in *. lia. }
  destruct (Lay_nth' _ _ _ _ L1 Hreg) as (v & Hv & Ev).
  replace (nvdb s1 - 1)%Z with (Z.of_nat (m + (c - 1))) in H by (unfold Vars_model.nvdb; lia).
  rewrite (getvar_nth _ _ _ Hv) in H. cbn [rbind] in H.
  assert (Nv : v_name v = cut99 (name ++ nth (c - 1) (comps_of t) [])).
  { unfold view, E in Ev. simpl in Ev. now injection Ev as -> _ _. }
  rewrite Nv in H. destruct (SetConstantFlag_spec _ _ _ _ _ _ L1 Hreg) as (s2 & F & L2 & R2 & Len2 & Q).
  rewrite F in H. injection H as <-. repeat split; try apply L2; try congruence.
  - intros i u Hu. assert (i < m) by (apply nth_error_Some; congruence).
    rewrite (Q i u). 2:{ rewrite V, nth_error_app1; auto. }
    destruct (Nat.leb_spec (m + (c - 1) - (c - 1)) i); simpl; auto; lia.
  - intros i u Hi Hu. assert (i < m + c).
    { rewrite <- Ls1, <- Len2. apply nth_error_Some. congruence. }
    destruct (nth_error (vdb s1) i) as [w|] eqn:Hw. 2:{ apply nth_error_None in Hw. lia. }
    rewrite (Q i w Hw) in Hu. injection Hu as <-.
    destruct (Nat.leb_spec (m + (c - 1) - (c - 1)) i); [|lia].
    destruct (Nat.ltb_spec i (m + (c - 1) - (c - 1) + c)); [|lia]. reflexivity.
Qed.

Lemma Lay_step s ds o s' : Lay s ds -> restarts s = 0 -> o <> VRestart D -> vstep D d0 s o = Ok s' ->
  Lay s' (ds ++ decl_of o) /\ restarts s' = 0.
Proof.
  intros L R NR H. destruct o as [n t d|n t d|n|n b|n|]; simpl in H; cbn [Vars_api_spec.decl_of]; try rewrite app_nil_r.
  - apply (Lay_add _ ds) in H; tauto.
  - apply (Lay_addconst _ ds) in H; tauto.
  - unfold SetStart in H. destruct (_ <? 0)%Z; [discriminate|]. injection H as <-. split; auto.
  - unfold SetBoundaryInfo in H. destruct (Ind D s n) as [i| |]; try discriminate. cbn [rbind] in H.
    destruct (getvar s i) as [v| |] eqn:G; try discriminate. cbn [rbind] in H.
    eapply Lay_setvar in H; eauto; [|now split]. destruct H as (A & B & _). split; auto. congruence.
  - destruct L as (M & I & N). pose proof H as H0. unfold SetConstantFlag in H0.
    destruct (Ind D s n) as [i| |] eqn:In_; try discriminate.
    apply Ind_ok in In_ as (k & v & -> & Hv & <-); auto.
    destruct (Lay_nth s ds k v (conj M (conj I N)) Hv) as ([[f j] c] & He & Ev).
    assert (v_name v = cut99 f) as Nf by (unfold view, E in Ev; simpl in Ev; now injection Ev as -> _ _).
    rewrite Nf in H. destruct (SetConstantFlag_spec _ _ _ _ _ _ (conj M (conj I N)) He) as (s2 & F & L2 & R2 & _).
    rewrite F in H. injection H as <-. split; auto. congruence.
  - contradiction.
Qed.
Lemma Lay_run os : forall s ds s', Lay s ds -> restarts s = 0 -> no_restart os -> vrun D d0 s os = Ok s' ->
  Lay s' (ds ++ decls os) /\ restarts s' = 0.
Proof.
  induction os as [|o os IH]; intros s ds s' L R NR H; simpl in H.
  - injection H as <-. unfold Vars_api_spec.decls. simpl. now rewrite app_nil_r.
  - destruct (vstep D d0 s o) as [s1| |] eqn:St; try discriminate. cbn [rbind] in H.
    inversion NR; subst. destruct (Lay_step _ _ _ _ L R H2 St) as [L1 R1].
    destruct (IH _ _ _ L1 R1 H3 H) as [L2 R2]. split; auto. unfold Vars_api_spec.decls in *. simpl. now rewrite app_assoc.
Qed.
Lemma Lay_init : Lay (vinit D) [].
Proof. split; [reflexivity|]. split; [intros [|k] v Hk; discriminate|constructor]. Qed.

(** ** a history of AddVar calls succeeds iff strings are valid and names are distinct *)
Definition til_ok (t : str) : Prop := exists il sym, tensorindexlist t = Ok (il, sym).
Lemma loop_ok name t d nil_ sym : forall il j s, restarts s = 0 ->
  NoDup (map v_name (vdb s) ++ map (fun x => fullname name x) il) ->
  exists s', addvar_loop D d0 name t d nil_ sym j il s = Ok s'.
Proof.
  induction il as [|x il IH]; intros j s R N; cbn [addvar_loop]; eauto.
  unfold addvar1. replace (existsb _ _) with false.
  2:{ symmetry. apply not_true_iff_false. rewrite in_names_existsb. intros C.
      apply NoDup_remove_2 in N. apply N. apply in_or_app. now left. }
  cbn [rbind]. apply IH; auto. simpl. rewrite map_app, <- app_assoc. exact N.
Qed.
End P.
