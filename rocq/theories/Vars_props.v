(** Properties C05-C07: variable registry and variable lists. *)
From Verif Require Import Base Tensors_model Tensors_spec Tensors_proofs Vars_model Vars_spec Vars_api_spec
  Vars_proofs Vlist_proofs.

(** ** C05 *)
Theorem C05_registry : forall D d0 (os : list (vop D)) st,
  no_restart D os -> vrun D d0 (vinit D) os = Ok st ->
  Forall (fun f => List.length f <= 99) (full_names (decls D os)) ->
  NoDup (full_names (decls D os)) /\
  nvdb D st = Z.of_nat (List.length (registry (decls D os))) /\
  (forall name, ~ In name (full_names (decls D os)) -> Ind D st name = Err) /\
  forall k full j n, nth_error (registry (decls D os)) k = Some (full, j, n) ->
    (forall start, Ind D {| vdb := vdb D st; vStart := start; restarts := restarts D st |} full = Ok (Z.of_nat k)) /\
    Ind D st full = Ok (Z.of_nat k) /\
    VarName D st (Z.of_nat k) = Ok full /\
    j <= k /\ IndComponent0 D st (Z.of_nat k) = Ok (Z.of_nat (k - j)) /\
    VarNComponents D st (Z.of_nat k) = Ok (Z.of_nat n).
Proof.
  intros D d0 os st NR H Sh. destruct (Lay_run D d0 os _ [] _ (Lay_init D) eq_refl NR H) as [L _].
  cbn [app] in L. pose proof (Lay_len _ _ _ L) as Len. pose proof L as (M & I & N).
  assert (Names : map (v_name D) (vdb D st) = full_names (decls D os)).
  { unfold full_names. assert (Q : map (fun x => fst (fst x)) (map (view D) (vdb D st)) =
      map (fun x => fst (fst x)) (map E (registry (decls D os)))) by now rewrite M.
    rewrite !map_map in Q. simpl in Q. etransitivity; [exact Q|]. apply map_ext_in. intros e He.
    unfold cut99. apply firstn_all2. rewrite Forall_forall in Sh. apply Sh. unfold full_names. apply in_map_iff. eauto. }
  split; [congruence|]. split; [unfold nvdb; now rewrite Len|]. split.
  { intros name Hn. apply Ind_absent. congruence. }
  intros k full j n Hk. assert (C : cut99 full = full).
  { apply firstn_all2. rewrite Forall_forall in Sh. apply Sh. unfold full_names. apply in_map_iff.
    exists (full, j, n). split; auto. eapply nth_error_In; eauto. }
  pose proof (registry_group _ _ _ _ _ Hk) as (A & _).
  split; [|split; [|split; [|split; [|split]]]].
  - intros start. pose proof (query_ind D _ _ _ _ _ _ (Lay_start D _ _ start L) Hk) as Q. rewrite C in Q. exact Q.
  - pose proof (query_ind D _ _ _ _ _ _ L Hk) as Q. now rewrite C in Q.
  - pose proof (query_name D _ _ _ _ _ _ L Hk) as Q. now rewrite C in Q.
  - exact A.
  - exact (query_comp0 D _ _ _ _ _ _ L Hk).
  - exact (query_ncomp D _ _ _ _ _ _ L Hk).
Qed.
Print Assumptions C05_registry.

(** Without restarts, a history of AddVar calls aborts exactly if a tensor string is not
    understood or a (cut off) full name repeats. *)
Theorem C05_addvar_succeeds_iff : forall D d0 (l : list (str * str * str)),
  (exists st, vrun D d0 (vinit D) (map (fun p => VAdd D (fst (fst p)) (snd (fst p)) (snd p)) l) = Ok st) <->
  (Forall (fun p => exists il sym, tensorindexlist (snd (fst p)) = Ok (il, sym)) l /\
   NoDup (map cut99 (full_names (map (fun p => (fst (fst p), comps_of (snd (fst p)))) l)))).
Proof.
  intros D d0 l.
  assert (G : forall l s ds, Lay D s ds -> restarts D s = 0 ->
   ((exists st, vrun D d0 s (map (fun p => VAdd D (fst (fst p)) (snd (fst p)) (snd p)) l) = Ok st) <->
    (Forall (fun p => exists il sym, tensorindexlist (snd (fst p)) = Ok (il, sym)) l /\
     NoDup (map cut99 (full_names (ds ++ map (fun p => (fst (fst p), comps_of (snd (fst p)))) l)))))).
  { assert (LN : forall s ds, Lay D s ds -> map (v_name D) (vdb D s) = map cut99 (full_names ds)).
    { intros s ds (M & _). unfold full_names. rewrite map_map.
      assert (Q : map (fun x => fst (fst x)) (map (view D) (vdb D s)) =
        map (fun x => fst (fst x)) (map E (registry ds))) by now rewrite M.
      rewrite !map_map in Q. exact Q. }
    clear l. induction l as [|[[n t] d] l IH]; intros s ds L R; cbn [map vrun vstep].
    - rewrite app_nil_r. rewrite <- (LN _ _ L). split.
      + intros _. split; auto. apply L.
      + intros _. eauto.
    - cbn [fst snd]. split.
      + intros [st H]. destruct (AddVar D d0 n t d s) as [s1| |] eqn:A; try discriminate. cbn [rbind] in H.
        destruct (Lay_add D d0 _ _ _ _ _ _ L R A) as (L1 & R1 & _).
        destruct (proj1 (IH s1 _ L1 R1) (ex_intro _ _ H)) as [F N]. split.
        * constructor; auto. cbn [fst snd]. unfold AddVar in A. destruct (tensorindexlist t) as [[il sym]| |]; try discriminate. eauto.
        * rewrite <- app_assoc in N. exact N.
      + intros [F N]. inversion F as [|x y (il & sym & T) F']; subst. cbn [fst snd] in *.
        assert (C : comps_of t = il) by (unfold comps_of; now rewrite T). rewrite C in *.
        assert (Ex : exists s1, AddVar D d0 n t d s = Ok s1).
        { unfold AddVar. rewrite T. cbn [rbind]. apply loop_ok; auto.
          rewrite (LN _ _ L). unfold full_names in *. rewrite registry_app in N.
          match type of N with context [registry (?p :: ?r)] =>
            change (registry (p :: r)) with (group p ++ registry r) in N end.
          rewrite !map_app, app_assoc in N.
          apply NoDup_app_l in N. unfold group in N. cbn [fst snd] in N. rewrite !map_map in N.
          cbn [fst snd] in N.
          replace (map (fun x => fullname n x) il) with
            (map (fun x : nat * str => cut99 (n ++ snd x)) (combine (seq 0 (List.length il)) il)).
          2:{ change (map (fun x : nat * str => cut99 (n ++ snd x)) (combine (seq 0 (List.length il)) il))
                with (map (fun x : nat * str => fullname n (snd x)) (combine (seq 0 (List.length il)) il)).
              rewrite <- (map_map snd (fun x => fullname n x)). f_equal.
              generalize 0. clear. induction il as [|x il IH]; intros b; simpl; auto. now rewrite IH. }
          rewrite map_map. exact N. }
        destruct Ex as [s1 A]. rewrite A. cbn [rbind].
        destruct (Lay_add D d0 _ _ _ _ _ _ L R A) as (L1 & R1 & _). rewrite C in L1.
        apply (proj2 (IH s1 _ L1 R1)). split; auto. now rewrite <- app_assoc. }
  exact (G l (vinit D) [] (Lay_init D) eq_refl).
Qed.
Print Assumptions C05_addvar_succeeds_iff.

Definition ex_vars : list (vop unit) :=
  [VAdd _ (S_ "psi") [] []; VAdd _ (S_ "g") (S_ "(ij)") []; VStart _ (S_ "gxy");
   VAddConst _ (S_ "beta") (S_ "I") []; VBound _ (S_ "psi") tt].
Example C05_example : exists st, vrun unit tt (vinit unit) ex_vars = Ok st /\ no_restart _ ex_vars /\
  Forall (fun f => List.length f <= 99) (full_names (decls _ ex_vars)) /\
  nth_error (registry (decls _ ex_vars)) 8 = Some (S_ "betay", 1, 3).
Proof.
  eexists. split; [vm_compute; reflexivity|]. split.
  { repeat constructor; discriminate. }
  split; [|vm_compute; reflexivity].
  assert (C : forallb (fun f => List.length f <=? 99) (full_names (decls _ ex_vars)) = true) by (vm_compute; reflexivity).
  apply Forall_forall. intros f Hf. rewrite forallb_forall in C. apply C in Hf. now apply Nat.leb_le.
Qed.

(** Names are silently cut at 99 characters: a longer name cannot be found again. *)
Theorem C05_long_name_refuted : exists name st,
  vrun unit tt (vinit unit) [VAdd _ name [] []] = Ok st /\ Ind unit st name = Err.
Proof. exists (repeat "a"%char 120). eexists. split; vm_compute; reflexivity. Qed.
Print Assumptions C05_long_name_refuted.

(** After a restart, adding a tensor of which only some components exist already breaks the
    component bookkeeping: IndComponent0 of "vy" is the unrelated variable "psi". *)
Theorem C05_restart_refuted : exists os st,
  vrun unit tt (vinit unit) os = Ok st /\ Ind unit st (S_ "vy") = Ok 2%Z /\
  IndComponent0 unit st 2 = Ok 1%Z /\ VarName unit st 1 = Ok (S_ "psi").
Proof.
  exists [VAdd _ (S_ "vx") [] []; VAdd _ (S_ "psi") [] []; VRestart _; VAdd _ (S_ "v") (S_ "i") []].
  eexists. split; [vm_compute; reflexivity|]. vm_compute. auto.
Qed.
Print Assumptions C05_restart_refuted.

(** Re-adding variables after a restart changes nothing if all their components exist. *)
Theorem C05_restart_idempotent : forall D d0 name t d (s : vstate D) il sym,
  restarts D s <> 0 -> tensorindexlist t = Ok (il, sym) ->
  (forall x, In x il -> In (cut99 (name ++ x)) (map (v_name D) (vdb D s))) ->
  AddVar D d0 name t d s = Ok s.
Proof.
  intros D d0 name t d s il sym R T H. unfold AddVar. rewrite T. cbn [rbind].
  assert (G : forall nn l j, (forall x, In x l -> In x il) -> addvar_loop D d0 name t d nn sym j l s = Ok s).
  { intros nn. induction l as [|x l IH]; intros j Hl; cbn [addvar_loop]; auto.
    unfold addvar1. replace (existsb _ _) with true.
    2:{ symmetry. apply (in_names_existsb D). apply H. apply Hl. now left. }
    replace (restarts D s =? 0) with false by (symmetry; now apply Nat.eqb_neq). cbn [rbind].
    apply IH. intros y Hy. apply Hl. now right. }
  now apply G.
Qed.
Print Assumptions C05_restart_idempotent.

(** ** C06 *)
Theorem C06_addconstant_partial : forall D d0 (os : list (vop D)) st name t d st',
  no_restart D os -> vrun D d0 (vinit D) os = Ok st ->
  AddConstantVar D d0 name t d st = Ok st' ->
  let old := List.length (vdb D st) in
  List.length (vdb D st') = old + List.length (comps_of t) /\
  (forall i x, nth_error (comps_of t) i = Some x ->
     VarName D st' (Z.of_nat (old + i)) = Ok (cut99 (name ++ x)) /\
     VarConstantFlag D st' (Z.of_nat (old + i)) = Ok 1%Z) /\
  (forall i v, nth_error (vdb D st) i = Some v -> nth_error (vdb D st') i = Some v).
Proof.
  intros D d0 os st name t d st' NR H A old.
  destruct (Lay_run D d0 os _ [] _ (Lay_init D) eq_refl NR H) as [L R]. cbn [app] in L.
  destruct (Lay_addconst D d0 _ _ _ _ _ _ L R A) as (L1 & R1 & Len & Old & New).
  split; [exact Len|]. split; [|exact Old].
  intros i x Hi.
  assert (Hr : nth_error (registry (decls D os ++ [(name, comps_of t)])) (old + i) = Some (name ++ x, i, List.length (comps_of t))).
  { rewrite registry_app, nth_error_app2; rewrite <- (Lay_len _ _ _ L); fold old; [|lia].
    replace (old + i - old) with i by lia. cbn [registry flat_map]. rewrite app_nil_r, group_nth.
    - simpl. now rewrite (nth_error_nth _ _ _ Hi).
    - simpl. apply nth_error_Some. congruence. }
  split; [exact (query_name D _ _ _ _ _ _ L1 Hr)|].
  destruct (Lay_nth' D _ _ _ _ L1 Hr) as (v & Hv & _).
  unfold VarConstantFlag. rewrite (getvar_nth D _ _ _ Hv). cbn [rbind]. f_equal.
  apply (New (old + i) v); auto. unfold old. lia.
Qed.
Print Assumptions C06_addconstant_partial.

(** VarNameSetConstantFlag always marks exactly the components of the named variable. *)
Theorem C06_setconstant : forall D d0 (os : list (vop D)) st k f j n,
  no_restart D os -> vrun D d0 (vinit D) os = Ok st ->
  nth_error (registry (decls D os)) k = Some (f, j, n) ->
  exists st', SetConstantFlag D (cut99 f) st = Ok st' /\
    List.length (vdb D st') = List.length (vdb D st) /\
    forall i v, nth_error (vdb D st) i = Some v ->
      nth_error (vdb D st') i = Some (if (k - j <=? i) && (i <? k - j + n) then with_const D v else v).
Proof.
  intros D d0 os st k f j n NR H Hk.
  destruct (Lay_run D d0 os _ [] _ (Lay_init D) eq_refl NR H) as [L R]. cbn [app] in L.
  destruct (SetConstantFlag_spec D _ _ _ _ _ _ L Hk) as (s' & A & _ & _ & B & C). eauto.
Qed.
Print Assumptions C06_setconstant.
Example C06_example : exists st st',
  vrun unit tt (vinit unit) [VAdd _ (S_ "psi") [] []; VAdd _ (S_ "g") (S_ "(ij)") []] = Ok st /\
  AddConstantVar unit tt (S_ "x") (S_ "ij") [] st = Ok st' /\ List.length (vdb unit st') = 16 /\
  VarConstantFlag unit st' 3 = Ok 0%Z /\ VarConstantFlag unit st' 10 = Ok 1%Z.
Proof. eexists _, _. split; [vm_compute; reflexivity|]. split; [vm_compute; reflexivity|]. vm_compute. auto. Qed.

(** After a restart the call marks a variable that was not named, and not the named one. *)
Theorem C06_restart_refuted : exists os st st',
  vrun unit tt (vinit unit) os = Ok st /\
  AddConstantVar unit tt (S_ "c") [] [] st = Ok st' /\
  VarName unit st 1 = Ok (S_ "u") /\ VarConstantFlag unit st 1 = Ok 0%Z /\ VarConstantFlag unit st' 1 = Ok 1%Z.
Proof.
  exists [VAddConst _ (S_ "c") [] []; VAdd _ (S_ "u") [] []; VRestart _].
  eexists _, _. split; [vm_compute; reflexivity|]. split; [vm_compute; reflexivity|]. vm_compute. auto.
Qed.
Print Assumptions C06_restart_refuted.

(** ** C07 *)
(** In any reachable data base, for any list v holding l (and u holding m): *)
Theorem C07_varlists : forall D d0 (os : list (vop D)) st v l u m,
  no_restart D os -> vrun D d0 (vinit D) os = Ok st -> vl_is v l -> vl_is u m ->
  (forall vi, exists v', vlpushone v vi = Ok v' /\ vl_is v' (l ++ [vi])) /\
  (exists v', vlpushvl v u = Ok v' /\ vl_is v' (l ++ m)) /\
  (forall vi, exists v', vldropone v vi = Ok v' /\ vl_is v' (remove1 vi l)) /\
  (forall n, vl_is (vldropn v n) (firstn (List.length l - Z.to_nat n) l)) /\
  (exists w, vlduplicate v = Ok w /\ vl_is w l) /\
  (forall k f n, nth_error (registry (decls D os)) k = Some (f, 0, n) ->
     (exists v', vlpush D st v (Z.of_nat k) = Ok v' /\ vl_is v' (l ++ zrange (Z.of_nat k) n)) /\
     (exists v', vldrop D st v (Z.of_nat k) = Ok v' /\
        vl_is v' (fold_left (fun c i => remove1 i c) (zrange (Z.of_nat k) n) l))) /\
  (forall k f j n, nth_error (registry (decls D os)) k = Some (f, j, n) -> j <> 0 ->
     vlpush D st v (Z.of_nat k) = Err).
Proof.
  intros D d0 os st v l u m NR H V U.
  destruct (Lay_run D d0 os _ [] _ (Lay_init D) eq_refl NR H) as [L R]. cbn [app] in L.
  split; [|split; [|split; [|split; [|split; [|split]]]]].
  - intros vi. now apply pushone_ok.
  - now apply vlpushvl_ok.
  - intros vi. now apply dropone_ok.
  - intros n. now apply vldropn_ok.
  - now apply duplicate_ok.
  - intros k f n Hk. split; [eapply vlpush_ok; eauto|eapply vldrop_ok; eauto].
  - intros k f j n Hk J. eapply vlpush_err; eauto.
Qed.
Print Assumptions C07_varlists.
Example C07_example : exists v1 v2 v3,
  vlpushone vlalloc 5 = Ok v1 /\ vlpushone v1 7 = Ok v2 /\ vldropone v2 5 = Ok v3 /\
  vl_is v2 [5; 7]%Z /\ vl_is v3 [7]%Z.
Proof.
  eexists _, _, _. split; [reflexivity|]. split; [reflexivity|]. split; [reflexivity|]. split.
  - exists []. auto.
  - exists [Some 7%Z]. auto.
Qed.

(** Appending a list to itself is not the list twice: the second half stays uninitialised. *)
Theorem C07_pushvl_self_refuted : forall v l, vl_is v l -> List.length (vl_buf v) = List.length l ->
  exists v', vlpushvl_self v = Ok v' /\ vl_n v' = 2 * List.length l /\
    vl_buf v' = map Some l ++ repeat None (List.length l).
Proof. exact pushvl_self. Qed.
Print Assumptions C07_pushvl_self_refuted.

(** vldrop, unlike vlpush, does not check that it is given a first component: it then drops a
    variable of the next group. *)
Theorem C07_drop_component_refuted : exists os st v',
  vrun unit tt (vinit unit) os = Ok st /\ Ind unit st (S_ "psi") = Ok 3%Z /\ Ind unit st (S_ "vz") = Ok 2%Z /\
  vldrop unit st {| vl_buf := [Some 0; Some 2; Some 3]%Z; vl_n := 3 |} 2 = Ok v' /\ vl_is v' [0]%Z.
Proof.
  exists [VAdd _ (S_ "v") (S_ "i") []; VAdd _ (S_ "psi") [] []; VAdd _ (S_ "phi") [] []].
  eexists _, _. split; [vm_compute; reflexivity|]. split; [vm_compute; reflexivity|]. split; [vm_compute; reflexivity|].
  split; [vm_compute; reflexivity|]. eexists. split; reflexivity.
Qed.
Print Assumptions C07_drop_component_refuted.

(** AddDuplicate of a list that does not contain whole tensors gives variables whose component-0
    index is wrong: the duplicate of gxy alone claims component 1 and IndComponent0 points to an
    unrelated variable. *)
Theorem C07_addduplicate_refuted : exists os st st' newvl,
  vrun unit tt (vinit unit) os = Ok st /\
  AddDuplicate unit tt {| vl_buf := [Some 1%Z]; vl_n := 1 |} (S_ "_p") st = Ok (st', newvl) /\
  vl_is newvl [4]%Z /\ VarName unit st' 4 = Ok (S_ "vy_p") /\
  IndComponent0 unit st' 4 = Ok 3%Z /\ VarName unit st' 3 = Ok (S_ "psi").
Proof.
  exists [VAdd _ (S_ "v") (S_ "i") []; VAdd _ (S_ "psi") [] []].
  eexists _, _, _. split; [vm_compute; reflexivity|]. split; [vm_compute; reflexivity|].
  split; [exists []; split; reflexivity|]. vm_compute. auto.
Qed.
Print Assumptions C07_addduplicate_refuted.
