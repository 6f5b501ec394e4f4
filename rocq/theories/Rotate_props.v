(** C21: a crash never destroys the last checkpoint.  C22: rotation keeps the last checkpoint. *)
From Verif Require Import Base Rotate_model.

Lemma set_same s p c : fs_set s p c p = c.
Proof. unfold fs_set. now rewrite Nat.eqb_refl. Qed.
Lemma set_other s p c q : q <> p -> fs_set s p c q = s q.
Proof. intros H. unfold fs_set. destruct (Nat.eqb_spec q p); auto. contradiction. Qed.
Lemma run_writes name new open : name <> new -> forall chunks s ns c0, s new = Some c0 ->
  exists w, let s' := sys_run name new open s (map Write chunks) ns in s' new = Some (c0 ++ w) /\ (forall q, q <> new -> s' q = s q) /\
     (Forall2 (fun c n => List.length c <= n) chunks ns -> w = concat chunks).
Proof.
  intros NE. induction chunks as [|c chunks IH]; intros s ns c0 H.
  - exists []. cbn. rewrite app_nil_r. destruct ns; repeat split; auto.
  - destruct ns as [|n ns].
    + exists []. cbn. rewrite app_nil_r. repeat split; auto. intros F. inversion F.
    + cbn [map sys_run sys]. rewrite H. destruct (IH (fs_set s new (Some (c0 ++ firstn n c))) ns (c0 ++ firstn n c)) as (w & A & B & C); [apply set_same|].
      exists (firstn n c ++ w). cbv zeta in *. rewrite app_assoc. split; [exact A|]. split.
      * intros q Q. rewrite B by auto. now apply set_other.
      * intros F. inversion F; subst. cbn [concat]. rewrite firstn_all2 by auto. now rewrite C.
Qed.
Lemma run_app name new open : forall a b s ns, sys_run name new open s (a ++ b) ns =
  if List.length ns <=? List.length a then sys_run name new open s a ns
  else (let s' := sys_run name new open s a ns in
        match find (fun o => match o with OpenNew => negb open | _ => false end) a with Some _ => s' | None => sys_run name new open s' b (skipn (List.length a) ns) end).
Proof.
  induction a as [|o a IH]; intros b s ns.
  - destruct ns as [|n ns]; [destruct b; reflexivity|reflexivity].
  - destruct ns as [|n ns]; [reflexivity|]. cbn [app sys_run List.length Nat.leb find skipn].
    destruct (sys name new open s o n) as [s'|] eqn:E.
    + rewrite IH. destruct o; auto. cbn in E. destruct open; [auto|discriminate].
    + destruct o; cbn in E; try discriminate; try (destruct (s new); discriminate). destruct open; [discriminate|]. cbn. destruct (_ <=? _); reflexivity.
Qed.
(** However far the process gets ([ns] has one entry for each call that was made, with the number of bytes accepted), if every write
    that was followed by another call was complete, the checkpoint file is the old one or the complete new one, and no file except
    the two is touched. *)
Theorem C21_crash_partial name new open s chunks ns : name <> new ->
  (forall i n c, nth_error ns i = Some n -> nth_error (program chunks) i = Some (Write c) -> S i < List.length ns -> List.length c <= n) ->
  let s' := sys_run name new open s (program chunks) ns in
  (s' name = s name \/ s' name = Some (concat chunks)) /\ (forall q, q <> name -> q <> new -> s' q = s q) /\
  (open = true -> List.length (program chunks) <= List.length ns -> s' name = Some (concat chunks)).
Proof.
  intros NE HW s'. unfold s', program in *. clear s'. destruct ns as [|n ns]; [cbn; repeat split; auto; intros _ L; lia|].
  cbn [sys_run sys]. destruct open; [|cbn; repeat split; auto; discriminate].
  set (s1 := fs_set s new (Some [])). rewrite run_app. rewrite map_length.
  destruct (run_writes name new true NE chunks s1 ns []) as (w & A & B & C); [apply set_same|]. cbv zeta in *.
  assert (N1 : s1 name = s name) by (now apply set_other).
  destruct (List.length ns <=? List.length chunks) eqn:E.
  - apply Nat.leb_le in E. rewrite B by auto. rewrite N1. repeat split; auto.
    + intros q Q1 Q2. rewrite B by auto. now apply set_other.
    + intros _ L. cbn [List.length] in L. rewrite app_length, map_length in L. cbn in L. lia.
  - apply Nat.leb_gt in E. replace (find _ (map Write chunks)) with (@None sysop) by (symmetry; clear; induction chunks; auto).
    set (s2 := sys_run name new true s1 (map Write chunks) ns) in *. set (m := skipn (List.length chunks) ns).
    assert (LM : List.length m = List.length ns - List.length chunks) by (apply skipn_length).
    assert (W : 2 <= List.length m -> w = concat chunks).
    { intros L. enough (F : Forall2 (fun c n => List.length c <= n) chunks (firstn (List.length chunks) ns)).
      - destruct (run_writes name new true NE chunks s1 (firstn (List.length chunks) ns) []) as (w' & A' & B' & C'); [apply set_same|]. cbv zeta in *. specialize (C' F).
        assert (EQ : sys_run name new true s1 (map Write chunks) (firstn (List.length chunks) ns) = s2).
        { unfold s2. clear. clearbody s1. revert s1 ns. induction chunks as [|c cs IH]; intros s1 ns; [destruct ns; reflexivity|]. destruct ns as [|n ns]; [reflexivity|].
          cbn [List.length firstn map sys_run]. destruct (sys name new true s1 (Write c) n); [apply IH|reflexivity]. }
        rewrite EQ in A'. cbn [app] in A, A'. congruence.
      - clear - HW L LM. assert (HH : forall i c, nth_error chunks i = Some c -> exists k, nth_error ns i = Some k /\ List.length c <= k).
        { intros i c EC. destruct (nth_error ns i) as [k|] eqn:EK.
          - exists k. split; auto. apply (HW (S i) k c); cbn [nth_error List.length]; auto.
            + rewrite nth_error_app1, nth_error_map, EC; [reflexivity|]. rewrite map_length. apply nth_error_Some. congruence.
            + assert (i < List.length chunks) by (apply nth_error_Some; congruence). lia.
          - apply nth_error_None in EK. assert (i < List.length chunks) by (apply nth_error_Some; congruence). lia. }
        clear - HH. revert ns HH. induction chunks as [|c cs IH]; intros ns HH; [constructor|]. destruct ns as [|k ns]; [destruct (HH 0 c eq_refl) as (k & E & _); discriminate|].
        cbn [List.length firstn]. constructor; [destruct (HH 0 c eq_refl) as (k' & [= <-] & Q); auto|]. apply IH. intros i c' E. exact (HH (S i) c' E). }
    destruct m as [|m0 [|m1 m]].
    + cbn in LM. lia.
    + cbn [sys_run sys]. rewrite B by auto. rewrite N1. repeat split; auto.
      * intros q Q1 Q2. rewrite B by auto. now apply set_other.
      * intros _ L. cbn [List.length] in L, LM. rewrite app_length, map_length in L. cbn in L. lia.
    + rewrite W in A by (cbn; lia). cbn [app] in A. cbn [sys_run sys]. rewrite A. 
      assert (R : forall r, sys_run name new true (fs_set (fs_set s2 name (Some (concat chunks))) new None) [] r = fs_set (fs_set s2 name (Some (concat chunks))) new None) by (intros []; reflexivity).
      try rewrite R. assert (V : fs_set (fs_set s2 name (Some (concat chunks))) new None name = Some (concat chunks)) by (rewrite set_other by auto; apply set_same).
      repeat split; auto. intros q Q1 Q2. rewrite !set_other by auto. rewrite B by auto. now apply set_other.
Qed.
Print Assumptions C21_crash_partial.
Example C21_example : let s := fun p => if p =? 0 then Some (S_ "old") else None in
  (sys_run 0 1 true s (program [S_ "new "; S_ "data"]) [0; 4; 2]) 0 = Some (S_ "old") /\
  (sys_run 0 1 true s (program [S_ "new "; S_ "data"]) [0; 4; 2]) 1 = Some (S_ "new da") /\
  (sys_run 0 1 true s (program [S_ "new "; S_ "data"]) [0; 4; 4; 0; 0]) 0 = Some (S_ "new data").
Proof. vm_compute. auto. Qed.
(** A write that fails because the disk is full is not noticed: the good checkpoint is replaced by an incomplete one. *)
Theorem C21_full_disk_refuted : exists (s : fs) chunks ns, s 0 = Some (S_ "old") /\
  let s' := sys_run 0 1 true s (program chunks) ns in s' 0 <> s 0 /\ s' 0 <> Some (concat chunks).
Proof.
  exists (fun p => if p =? 0 then Some (S_ "old") else None), [S_ "new "; S_ "data"], [0; 4; 1; 0; 0]. vm_compute. repeat split; discriminate.
Qed.
Print Assumptions C21_full_disk_refuted.

(** ** C22 *)
Definition default_run (k c : bool) : Prop := k = false /\ c = false.
Definition holds (d : option dir) (n : nat) : Prop := exists x, d = Some x /\ ck x = Some (Complete n).
Definition nock (d : option dir) : Prop := has_ck d = false.
(** what each position of a run with default options knows *)
Definition Inv (s : state) : Prop :=
  (at_ s <> Start -> kp s = false /\ cpv s = false) /\
  (last s = 0 /\ nock (cur s) /\ nock (prev s) \/
   last s <> 0 /\ (holds (cur s) (last s) /\ nock (prev s) /\ (forall r, at_ s = Running r -> r = false) /\ ~ In (at_ s) [Making; Checking; RmCur; Back; Copying]
                   \/ nock (cur s) /\ holds (prev s) (last s) /\ In (at_ s) [Start; Making; Checking; Running true; RmCur; Back])) /\
  (last s = 0 -> ~ In (at_ s) [Running true; RmCur; Back; Copying]).
Lemma inv_fresh : Inv fresh.
Proof. split; [intros H; contradiction H; reflexivity|]. split; [left; repeat split|]. intros _ [H|[H|[H|[H|[]]]]]; discriminate. Qed.
Lemma holds_has d n : holds d n -> has_ck d = true.
Proof. intros (x & -> & E). cbn. now rewrite E. Qed.
Lemma nock_holds d n : nock d -> ~ holds d n.
Proof. intros N H. apply holds_has in H. unfold nock in N. congruence. Qed.
Ltac pcs := repeat match goal with
  | H : In _ (_ :: _) |- _ => destruct H as [H|H]; [try discriminate H; try congruence|]
  | H : In _ [] |- _ => destruct H end.
Lemma inv_step s t : Inv s -> step default_run s t -> Inv t.
Proof.
  intros (I1 & I2 & I3) ST. inversion ST; subst; clear ST; unfold Inv, set_at, set_fs; cbn [at_ kp cpv cur prev last].
  - exact (conj I1 (conj I2 I3)).
  - (* start *) destruct H0 as [_ C]. subst c. rewrite H in *. split; [auto|]. split.
    + destruct I2 as [I2|[L [(A & B & _)|(A & B & _)]]]; [left; exact I2|right; split; [auto|]..].
      * left. split; [auto|]. split; [auto|]. split; [intros r; discriminate|]. intros Q. pcs.
      * exfalso. apply holds_has in B. unfold nock in A. rewrite A, B in H1. discriminate.
    + intros _ Q. pcs.
  - destruct H0. discriminate.
  - (* rm file *) rewrite H in *. split; [intros _; apply I1; discriminate|]. split.
    + destruct I2 as [(A & B & C)|[L [(A & B & C & E)|(A & B & C)]]].
      * left. split; [auto|]. split; [auto|reflexivity].
      * right. split; [auto|]. left. split; [auto|]. split; [reflexivity|]. split; [intros r; discriminate|]. intros Q. pcs.
      * pcs.
    + intros _ Q. pcs.
  - rewrite H in *. split; [intros _; apply I1; discriminate|]. split.
    + destruct I2 as [(A & B & C)|[L [(A & B & C & E)|(A & B & C)]]].
      * left. split; [auto|]. split; [auto|reflexivity].
      * right. split; [auto|]. left. split; [auto|]. split; [reflexivity|]. split; [intros r; discriminate|]. intros Q. pcs.
      * pcs.
    + intros _ Q. pcs.
  - (* mv *) rewrite H, H0 in *. split; [intros _; apply I1; discriminate|]. split.
    + destruct I2 as [(A & B & C)|[L [(A & B & C & E)|(A & B & C)]]].
      * left. split; [auto|]. split; [reflexivity|auto].
      * right. split; [auto|]. right. split; [reflexivity|]. split; [auto|]. cbn; auto.
      * pcs.
    + intros _ Q. pcs.
  - rewrite H in *. split; [intros _; apply I1; discriminate|]. split.
    + destruct I2 as [(A & B & C)|[L [(A & B & C & E)|(A & B & C)]]].
      * left. auto.
      * exfalso. destruct A as (x & A & _). congruence.
      * pcs.
    + intros _ Q. pcs.
  - (* mkdir *) rewrite H in *. split; [intros _; apply I1; discriminate|]. split.
    + destruct I2 as [(A & B & C)|[L [(A & B & C & E)|(A & B & C)]]].
      * left. split; [auto|]. split; [reflexivity|auto].
      * exfalso. destruct A as (x & A & _). congruence.
      * right. split; [auto|]. right. split; [reflexivity|]. split; [auto|]. cbn; auto.
    + intros _ Q. pcs.
  - rewrite H in *. split; [intros _; apply I1; discriminate|]. split.
    + destruct I2 as [(A & B & C)|[L [(A & B & C & E)|(A & B & C)]]].
      * left. auto.
      * exfalso. apply E. now left.
      * right. split; [auto|]. right. split; [auto|]. split; [auto|]. cbn; auto.
    + intros _ Q. pcs.
  - (* check *) rewrite H in *. split; [intros _; apply I1; discriminate|].
    destruct I2 as [(A & B & C)|[L [(A & B & C & E)|(A & B & C)]]].
    + unfold nock in C. rewrite C. split; [left; auto|]. intros _ Q. pcs.
    + exfalso. apply E. cbn; auto.
    + rewrite (holds_has _ _ B). split; [|intros Z; contradiction]. right. split; [auto|]. right. split; [auto|]. split; [auto|]. cbn; auto.
  - (* write *) rewrite H in *. split; [intros _; apply I1; discriminate|]. split; [|intros Z; discriminate].
    right. split; [discriminate|]. left. split; [eexists; split; reflexivity|].
    split. { destruct I2 as [(A & B & C)|[L [(A & B & C & E)|(A & B & C)]]]; auto. pcs. }
    split; [intros r [= <-]; reflexivity|]. intros Q. pcs.
  - (* restart *) rewrite H in *. split; [intros _; apply I1; discriminate|].
    destruct I2 as [(A & B & C)|[L [(A & B & C & E)|(A & B & C)]]].
    + exfalso. apply I3; auto. cbn; auto.
    + specialize (C true eq_refl). discriminate.
    + split; [|intros Z; contradiction]. right. split; [auto|]. right. split; [auto|]. split; [auto|]. cbn; auto 10.
  - rewrite H in *. split; [intros _; apply I1; discriminate|].
    destruct I2 as [(A & B & C)|[L [(A & B & C & E)|(A & B & C)]]].
    + exfalso. apply I3; auto. cbn; auto.
    + exfalso. apply E. cbn; auto.
    + split; [|intros Z; contradiction]. right. split; [auto|]. right. split; [reflexivity|]. split; [auto|]. cbn; auto 10.
  - rewrite H in *. split; [intros _; apply I1; discriminate|].
    destruct I2 as [(A & B & C)|[L [(A & B & C & E)|(A & B & C)]]].
    + exfalso. apply I3; auto. cbn; auto.
    + exfalso. apply E. cbn; auto.
    + split; [|intros Z; contradiction]. right. split; [auto|]. right. split; [reflexivity|]. split; [auto|]. cbn; auto 10.
  - (* mvback *) rewrite H in *. split; [intros _; apply I1; discriminate|].
    destruct I2 as [(A & B & C)|[L [(A & B & C & E)|(A & B & C)]]].
    + exfalso. apply I3; auto. cbn; auto.
    + exfalso. apply E. cbn; auto.
    + split; [|intros Z; contradiction]. right. split; [auto|]. left. rewrite H2 in B. split; [auto|]. split; [reflexivity|]. split; [intros r [= <-]; reflexivity|]. intros Q. pcs.
  - (* cp *) rewrite H in *. exfalso. destruct (I1 ltac:(discriminate)) as [X Y]. destruct H0; congruence.
  - rewrite H in *. destruct I2 as [(A & B & C)|[L [(A & B & C & E)|(A & B & C)]]].
    + exfalso. apply I3; auto. cbn; auto.
    + exfalso. apply E. cbn; auto 10.
    + pcs.
  - (* stop *) split; [intros Q; contradiction Q; reflexivity|]. split.
    + destruct I2 as [(A & B & C)|[L [(A & B & C & E)|(A & B & C)]]].
      * left. auto.
      * right. split; [auto|]. left. split; [auto|]. split; [auto|]. split; [intros r; discriminate|]. intros Q. pcs.
      * right. split; [auto|]. right. split; [auto|]. split; [auto|]. cbn; auto.
    + intros _ Q. pcs.
Qed.
(** Any number of runs with default options, each stopped anywhere: the checkpoint completed last is always in the output directory or in
    the previous one. *)
Theorem C22_default_partial s : reach default_run fresh s -> last s <> 0 -> holds (cur s) (last s) \/ holds (prev s) (last s).
Proof.
  intros R. assert (I : Inv s). { remember fresh as f eqn:E. revert E. induction R; intros ->; [apply inv_fresh|]. eapply inv_step; eauto. }
  intros L. destruct I as (_ & [(Z & _)|(_ & [(A & _)|(_ & A & _)])] & _); auto. contradiction.
Qed.
Print Assumptions C22_default_partial.
(** a run that starts: if only the previous directory has the checkpoint, the run stops and changes nothing *)
Theorem C22_refuses s t : at_ s = Start -> has_ck (prev s) = true -> has_ck (cur s) = false -> step default_run s t -> t = s \/ t = set_at s Start.
Proof.
  intros A B C ST. inversion ST; subst; auto; try congruence.
  - rewrite B, C in *. discriminate.
  - destruct H0. discriminate.
Qed.
Print Assumptions C22_refuses.
Ltac go c := eapply r_step; [|c].
(** Non-vacuity: a run, killed, and a second run that has restarted and written again. *)
Example C22_example : reach default_run fresh {| at_ := Running false; kp := false; cpv := false; cur := Some {| ck := Some (Complete 2) |}; prev := None; last := 2 |}.
Proof.
  go ltac:(eapply st_write with (s := {| at_ := Running false; kp := false; cpv := false; cur := Some {| ck := Some (Complete 1) |}; prev := None; last := 1 |}); reflexivity).
  go ltac:(eapply st_mvback with (s := {| at_ := Back; kp := false; cpv := false; cur := None; prev := Some {| ck := Some (Complete 1) |}; last := 1 |}); reflexivity).
  go ltac:(apply st_rmcur_done with (s := {| at_ := RmCur; kp := false; cpv := false; cur := Some {| ck := None |}; prev := Some {| ck := Some (Complete 1) |}; last := 1 |}); reflexivity).
  go ltac:(apply st_restart with (s := {| at_ := Running true; kp := false; cpv := false; cur := Some {| ck := None |}; prev := Some {| ck := Some (Complete 1) |}; last := 1 |}); reflexivity).
  go ltac:(apply st_check with (s := {| at_ := Checking; kp := false; cpv := false; cur := Some {| ck := None |}; prev := Some {| ck := Some (Complete 1) |}; last := 1 |}); reflexivity).
  go ltac:(apply st_mkdir with (s := {| at_ := Making; kp := false; cpv := false; cur := None; prev := Some {| ck := Some (Complete 1) |}; last := 1 |}); reflexivity).
  go ltac:(eapply st_mv with (s := {| at_ := Renaming; kp := false; cpv := false; cur := Some {| ck := Some (Complete 1) |}; prev := None; last := 1 |}); reflexivity).
  go ltac:(apply st_rm_done with (s := {| at_ := Removing; kp := false; cpv := false; cur := Some {| ck := Some (Complete 1) |}; prev := None; last := 1 |}); reflexivity).
  go ltac:(apply st_start with (s := {| at_ := Start; kp := false; cpv := false; cur := Some {| ck := Some (Complete 1) |}; prev := None; last := 1 |}); [reflexivity|split; reflexivity|reflexivity]).
  go ltac:(apply st_stop with (s := {| at_ := Running false; kp := false; cpv := false; cur := Some {| ck := Some (Complete 1) |}; prev := None; last := 1 |})).
  go ltac:(eapply st_write with (s := {| at_ := Running false; kp := false; cpv := false; cur := Some {| ck := None |}; prev := None; last := 0 |}); reflexivity).
  go ltac:(apply st_check with (s := {| at_ := Checking; kp := false; cpv := false; cur := Some {| ck := None |}; prev := None; last := 0 |}); reflexivity).
  go ltac:(apply st_mkdir with (s := {| at_ := Making; kp := false; cpv := false; cur := None; prev := None; last := 0 |}); reflexivity).
  go ltac:(apply st_mv_none with (s := {| at_ := Renaming; kp := false; cpv := false; cur := None; prev := None; last := 0 |}); reflexivity).
  go ltac:(apply st_rm_done with (s := {| at_ := Removing; kp := false; cpv := false; cur := None; prev := None; last := 0 |}); reflexivity).
  go ltac:(apply st_start with (s := fresh); [reflexivity|split; reflexivity|reflexivity]).
  apply r_refl.
Qed.
(** With checkpoint_previous = yes (or --keep_previous in one run and not in the next) a run that is killed while it copies the previous
    directory back leaves a part of a checkpoint file in the output directory; the next run takes it for a checkpoint and removes the
    previous directory with the only complete one. *)
Theorem C22_copy_refuted : exists s, reach (fun k c => k = false /\ c = true) fresh s /\ last s <> 0 /\ forall n, ~ holds (cur s) n /\ ~ holds (prev s) n.
Proof.
  exists {| at_ := Removing; kp := false; cpv := true; cur := Some {| ck := Some Part |}; prev := Some {| ck := None |}; last := 1 |}.
  split; [|split; [discriminate|]; intros n; split; intros (x & [= <-] & E); discriminate].
  go ltac:(eapply st_rm_file with (s := {| at_ := Removing; kp := false; cpv := true; cur := Some {| ck := Some Part |}; prev := Some {| ck := Some (Complete 1) |}; last := 1 |}); reflexivity).
  go ltac:(apply st_start with (s := {| at_ := Start; kp := false; cpv := true; cur := Some {| ck := Some Part |}; prev := Some {| ck := Some (Complete 1) |}; last := 1 |}); [reflexivity|split; reflexivity|reflexivity]).
  go ltac:(apply st_stop with (s := {| at_ := Copying; kp := false; cpv := true; cur := Some {| ck := Some Part |}; prev := Some {| ck := Some (Complete 1) |}; last := 1 |})).
  go ltac:(eapply st_cp_begin with (s := {| at_ := Back; kp := false; cpv := true; cur := None; prev := Some {| ck := Some (Complete 1) |}; last := 1 |}) (d := {| ck := Some (Complete 1) |}); [reflexivity|right; reflexivity|reflexivity]).
  go ltac:(apply st_rmcur_done with (s := {| at_ := RmCur; kp := false; cpv := true; cur := Some {| ck := None |}; prev := Some {| ck := Some (Complete 1) |}; last := 1 |}); reflexivity).
  go ltac:(apply st_restart with (s := {| at_ := Running true; kp := false; cpv := true; cur := Some {| ck := None |}; prev := Some {| ck := Some (Complete 1) |}; last := 1 |}); reflexivity).
  go ltac:(apply st_check with (s := {| at_ := Checking; kp := false; cpv := true; cur := Some {| ck := None |}; prev := Some {| ck := Some (Complete 1) |}; last := 1 |}); reflexivity).
  go ltac:(apply st_mkdir with (s := {| at_ := Making; kp := false; cpv := true; cur := None; prev := Some {| ck := Some (Complete 1) |}; last := 1 |}); reflexivity).
  go ltac:(eapply st_mv with (s := {| at_ := Renaming; kp := false; cpv := true; cur := Some {| ck := Some (Complete 1) |}; prev := None; last := 1 |}); reflexivity).
  go ltac:(apply st_rm_done with (s := {| at_ := Removing; kp := false; cpv := true; cur := Some {| ck := Some (Complete 1) |}; prev := None; last := 1 |}); reflexivity).
  go ltac:(apply st_start with (s := {| at_ := Start; kp := false; cpv := true; cur := Some {| ck := Some (Complete 1) |}; prev := None; last := 1 |}); [reflexivity|split; reflexivity|reflexivity]).
  go ltac:(apply st_stop with (s := {| at_ := Running false; kp := false; cpv := true; cur := Some {| ck := Some (Complete 1) |}; prev := None; last := 1 |})).
  go ltac:(eapply st_write with (s := {| at_ := Running false; kp := false; cpv := true; cur := Some {| ck := None |}; prev := None; last := 0 |}); reflexivity).
  go ltac:(apply st_check with (s := {| at_ := Checking; kp := false; cpv := true; cur := Some {| ck := None |}; prev := None; last := 0 |}); reflexivity).
  go ltac:(apply st_mkdir with (s := {| at_ := Making; kp := false; cpv := true; cur := None; prev := None; last := 0 |}); reflexivity).
  go ltac:(apply st_mv_none with (s := {| at_ := Renaming; kp := false; cpv := true; cur := None; prev := None; last := 0 |}); reflexivity).
  go ltac:(apply st_rm_done with (s := {| at_ := Removing; kp := false; cpv := true; cur := None; prev := None; last := 0 |}); reflexivity).
  go ltac:(apply st_start with (s := fresh); [reflexivity|split; reflexivity|reflexivity]).
  apply r_refl.
Qed.
Print Assumptions C22_copy_refuted.
(** A restart that is not stopped ends with the output directory equal to the previous one as it was found, whatever the options; the previous directory is not changed before, and is kept if the options say so. *)
Theorem C22_restart allowed s t : step allowed s t -> In (at_ s) [Running true; RmCur; Back; Copying] -> at_ t <> Start ->
  (In (at_ t) [Running true; RmCur; Back; Copying] /\ prev t = prev s) \/ (at_ t = Running false /\ cur t = prev s /\ (at_ s = Copying \/ kp s = true \/ cpv s = true -> prev t = prev s)).
Proof.
  intros ST I N. inversion ST; subst; try (rewrite H in I; pcs; fail); cbn in *; auto 10.
  - right. rewrite H2. split; auto. split; auto. rewrite H. intros [Q|[Q|Q]]; [discriminate|congruence|congruence].
Qed.
Print Assumptions C22_restart.
(** every position of a restart can go on *)
Theorem C22_restart_progress allowed s : In (at_ s) [Running true; RmCur; Back; Copying] -> prev s <> None -> exists t, step allowed s t /\ at_ t <> Start /\ at_ t <> at_ s.
Proof.
  intros I P. destruct (prev s) as [d|] eqn:E; [|contradiction]. destruct I as [A|[A|[A|[A|[]]]]]; symmetry in A.
  - exists (set_at s RmCur). split; [now apply st_restart|]. rewrite A. cbn. split; discriminate.
  - exists (set_fs s None (prev s) Back). split; [now apply st_rmcur_done|]. rewrite A. cbn. split; discriminate.
  - rewrite A. destruct (kp s) eqn:K; [|destruct (cpv s) eqn:V].
    + eexists. split; [eapply st_cp_begin; eauto|]. cbn. split; discriminate.
    + eexists. split; [eapply st_cp_begin; eauto|]. cbn. split; discriminate.
    + eexists. split; [eapply st_mvback; eauto|]. cbn. split; discriminate.
  - rewrite A. eexists. split; [eapply st_cp_end; eauto|]. cbn. split; discriminate.
Qed.
Print Assumptions C22_restart_progress.
(** runs that are never stopped while they copy the previous directory back *)
Inductive reach_nc (allowed : bool -> bool -> Prop) : state -> state -> Prop :=
| rn_refl s : reach_nc allowed s s
| rn_step s t u : reach_nc allowed s t -> step allowed t u -> ~ (at_ t = Copying /\ at_ u = Start) -> reach_nc allowed s u.
Definition InvC (s : state) : Prop :=
  (at_ s <> Start -> kp s = false) /\
  (last s = 0 /\ nock (cur s) /\ nock (prev s) \/
   last s <> 0 /\ (holds (cur s) (last s) /\ (forall r, at_ s = Running r -> r = false) /\ ~ In (at_ s) [Making; Checking; RmCur; Back; Copying]
                   \/ (at_ s = Copying \/ nock (cur s)) /\ holds (prev s) (last s) /\ In (at_ s) [Start; Making; Checking; Running true; RmCur; Back; Copying])) /\
  (last s = 0 -> ~ In (at_ s) [Running true; RmCur; Back; Copying]).
Lemma invc_step s t : InvC s -> step (fun k _ => k = false) s t -> ~ (at_ s = Copying /\ at_ t = Start) -> InvC t.
Proof.
  intros (I1 & I2 & I3) ST NC. inversion ST; subst; clear ST; unfold InvC, set_at, set_fs; cbn [at_ kp cpv cur prev last].
  - exact (conj I1 (conj I2 I3)).
  - (* start *) rewrite H in *. split; [auto|]. split.
    + destruct I2 as [I2|[L [(A & _)|([A|A] & B & _)]]]; [left; exact I2|right; split; [auto|]| |].
      * left. split; [auto|]. split; [intros r; discriminate|]. intros Q. pcs.
      * discriminate.
      * exfalso. apply holds_has in B. unfold nock in A. rewrite A, B in H1. discriminate.
    + intros _ Q. pcs.
  - discriminate.
  - (* rm file *) rewrite H in *. split; [intros _; apply I1; discriminate|]. split.
    + destruct I2 as [(A & B & C)|[L [(A & C & E)|(A & B & C)]]].
      * left. split; [auto|]. split; [auto|reflexivity].
      * right. split; [auto|]. left. split; [auto|]. split; [intros r; discriminate|]. intros Q. pcs.
      * pcs.
    + intros _ Q. pcs.
  - rewrite H in *. split; [intros _; apply I1; discriminate|]. split.
    + destruct I2 as [(A & B & C)|[L [(A & C & E)|(A & B & C)]]].
      * left. split; [auto|]. split; [auto|reflexivity].
      * right. split; [auto|]. left. split; [auto|]. split; [intros r; discriminate|]. intros Q. pcs.
      * pcs.
    + intros _ Q. pcs.
  - (* mv *) rewrite H, H0 in *. split; [intros _; apply I1; discriminate|]. split.
    + destruct I2 as [(A & B & C)|[L [(A & C & E)|(A & B & C)]]].
      * left. split; [auto|]. split; [reflexivity|auto].
      * right. split; [auto|]. right. split; [right; reflexivity|]. split; [auto|]. cbn; auto.
      * pcs.
    + intros _ Q. pcs.
  - rewrite H in *. split; [intros _; apply I1; discriminate|]. split.
    + destruct I2 as [(A & B & C)|[L [(A & C & E)|(A & B & C)]]].
      * left. auto.
      * exfalso. destruct A as (x & A & _). congruence.
      * pcs.
    + intros _ Q. pcs.
  - (* mkdir *) rewrite H in *. split; [intros _; apply I1; discriminate|]. split.
    + destruct I2 as [(A & B & C)|[L [(A & C & E)|(A & B & C)]]].
      * left. split; [auto|]. split; [reflexivity|auto].
      * exfalso. destruct A as (x & A & _). congruence.
      * right. split; [auto|]. right. split; [right; reflexivity|]. split; [auto|]. cbn; auto.
    + intros _ Q. pcs.
  - rewrite H in *. split; [intros _; apply I1; discriminate|]. split.
    + destruct I2 as [(A & B & C)|[L [(A & C & E)|([A|A] & B & C)]]].
      * left. auto.
      * exfalso. apply E. now left.
      * discriminate.
      * right. split; [auto|]. right. split; [auto|]. split; [auto|]. cbn; auto.
    + intros _ Q. pcs.
  - (* check *) rewrite H in *. split; [intros _; apply I1; discriminate|].
    destruct I2 as [(A & B & C)|[L [(A & C & E)|([A|A] & B & C)]]].
    + unfold nock in C. rewrite C. split; [left; auto|]. intros _ Q. pcs.
    + exfalso. apply E. cbn; auto.
    + discriminate.
    + rewrite (holds_has _ _ B). split; [|intros Z; contradiction]. right. split; [auto|]. right. split; [auto|]. split; [auto|]. cbn; auto.
  - (* write *) rewrite H in *. split; [intros _; apply I1; discriminate|]. split; [|intros Z; discriminate].
    right. split; [discriminate|]. left. split; [eexists; split; reflexivity|].
    split; [intros r [= <-]; reflexivity|]. intros Q. pcs.
  - (* restart *) rewrite H in *. split; [intros _; apply I1; discriminate|].
    destruct I2 as [(A & B & C)|[L [(A & C & E)|([A|A] & B & C)]]].
    + exfalso. apply I3; auto. cbn; auto.
    + specialize (C true eq_refl). discriminate.
    + discriminate.
    + split; [|intros Z; contradiction]. right. split; [auto|]. right. split; [auto|]. split; [auto|]. cbn; auto 10.
  - rewrite H in *. split; [intros _; apply I1; discriminate|].
    destruct I2 as [(A & B & C)|[L [(A & C & E)|(A & B & C)]]].
    + exfalso. apply I3; auto. cbn; auto.
    + exfalso. apply E. cbn; auto.
    + split; [|intros Z; contradiction]. right. split; [auto|]. right. split; [right; reflexivity|]. split; [auto|]. cbn; auto 10.
  - rewrite H in *. split; [intros _; apply I1; discriminate|].
    destruct I2 as [(A & B & C)|[L [(A & C & E)|(A & B & C)]]].
    + exfalso. apply I3; auto. cbn; auto.
    + exfalso. apply E. cbn; auto.
    + split; [|intros Z; contradiction]. right. split; [auto|]. right. split; [right; reflexivity|]. split; [auto|]. cbn; auto 10.
  - (* mvback *) rewrite H in *. split; [intros _; apply I1; discriminate|].
    destruct I2 as [(A & B & C)|[L [(A & C & E)|(A & B & C)]]].
    + exfalso. apply I3; auto. cbn; auto.
    + exfalso. apply E. cbn; auto.
    + split; [|intros Z; contradiction]. right. split; [auto|]. left. rewrite H2 in B. split; [auto|]. split; [intros r [= <-]; reflexivity|]. intros Q. pcs.
  - (* cp begin *) rewrite H in *. split; [intros _; apply I1; discriminate|].
    destruct I2 as [(A & B & C)|[L [(A & C & E)|(A & B & C)]]].
    + exfalso. apply I3; auto. cbn; auto.
    + exfalso. apply E. cbn; auto.
    + split; [|intros Z; contradiction]. right. split; [auto|]. right. split; [left; reflexivity|]. split; [auto|]. cbn; auto 10.
  - (* cp end *) rewrite H in *. split; [intros _; apply I1; discriminate|].
    destruct I2 as [(A & B & C)|[L [(A & C & E)|(A & B & C)]]].
    + exfalso. apply I3; auto. cbn; auto 10.
    + exfalso. apply E. cbn; auto 10.
    + split; [|intros Z; contradiction]. right. split; [auto|]. left. rewrite H0 in B. split; [auto|]. split; [intros r [= <-]; reflexivity|]. intros Q. pcs.
  - (* stop *) cbn in NC. split; [intros Q; contradiction Q; reflexivity|]. split.
    + destruct I2 as [(A & B & C)|[L [(A & C & E)|([A|A] & B & C)]]].
      * left. auto.
      * right. split; [auto|]. left. split; [auto|]. split; [intros r; discriminate|]. intros Q. pcs.
      * exfalso. auto.
      * right. split; [auto|]. right. split; [auto|]. split; [auto|]. cbn; auto.
    + intros _ Q. pcs.
Qed.
(** Any number of runs without --keep_previous, with any setting of checkpoint_previous, stopped anywhere except while the previous directory is copied back. *)
Theorem C22_copy_partial s : reach_nc (fun k _ => k = false) fresh s -> last s <> 0 -> holds (cur s) (last s) \/ holds (prev s) (last s).
Proof.
  intros R. assert (I : InvC s). { remember fresh as f eqn:E. revert E. induction R; intros ->.
    - split; [intros H; contradiction H; reflexivity|]. split; [left; repeat split|]. intros _ [H|[H|[H|[H|[]]]]]; discriminate.
    - eapply invc_step; eauto. }
  intros L. destruct I as (_ & [(Z & _)|(_ & [(A & _)|(_ & A & _)])] & _); auto. contradiction.
Qed.
Print Assumptions C22_copy_partial.
(** With --keep_previous the last checkpoint may be lost although no run is stopped while it copies: a second run with --keep_previous restarts from the
    previous directory again, which is older, and removes the output directory. *)
Theorem C22_keep_refuted : exists s, reach_nc (fun _ _ => True) fresh s /\ last s <> 0 /\ ~ holds (cur s) (last s) /\ ~ holds (prev s) (last s).
Proof.
  set (C n := Some {| ck := Some (Complete n) |}). set (Nk := Some {| ck := None |}).
  exists {| at_ := Back; kp := true; cpv := false; cur := None; prev := C 1; last := 2 |}.
  split; [|split; [discriminate|]; split; intros (x & [= <-] & [=])].
  assert (G : forall u t, step (fun _ _ => True) t u -> at_ t <> Copying -> reach_nc (fun _ _ => True) fresh t -> reach_nc (fun _ _ => True) fresh u). { intros u t ST N R. eapply rn_step; eauto. tauto. }
  eapply G; [apply st_rmcur_done with (s := {| at_ := RmCur; kp := true; cpv := false; cur := C 2; prev := C 1; last := 2 |}); reflexivity|cbn; discriminate|].
  eapply G; [apply st_restart with (s := {| at_ := Running true; kp := true; cpv := false; cur := C 2; prev := C 1; last := 2 |}); reflexivity|cbn; discriminate|].
  eapply G; [apply st_check with (s := {| at_ := Checking; kp := true; cpv := false; cur := C 2; prev := C 1; last := 2 |}); reflexivity|cbn; discriminate|].
  eapply G; [eapply st_mkdir_there with (s := {| at_ := Making; kp := true; cpv := false; cur := C 2; prev := C 1; last := 2 |}); reflexivity|cbn; discriminate|].
  eapply G; [apply st_start_keep with (s := {| at_ := Start; kp := true; cpv := false; cur := C 2; prev := C 1; last := 2 |}); [reflexivity|exact Logic.I]|cbn; discriminate|].
  eapply G; [apply st_stop with (s := {| at_ := Running false; kp := true; cpv := false; cur := C 2; prev := C 1; last := 2 |})|cbn; discriminate|].
  eapply G; [eapply st_write with (s := {| at_ := Running false; kp := true; cpv := false; cur := C 1; prev := C 1; last := 1 |}); reflexivity|cbn; discriminate|].
  eapply rn_step; [|eapply st_cp_end with (s := {| at_ := Copying; kp := true; cpv := false; cur := Some {| ck := Some Part |}; prev := C 1; last := 1 |}); reflexivity|intros [_ [=]]].
  eapply G; [eapply st_cp_begin with (s := {| at_ := Back; kp := true; cpv := false; cur := None; prev := C 1; last := 1 |}) (d := {| ck := Some (Complete 1) |}); [reflexivity|left; reflexivity|reflexivity]|cbn; discriminate|].
  eapply G; [apply st_rmcur_done with (s := {| at_ := RmCur; kp := true; cpv := false; cur := Nk; prev := C 1; last := 1 |}); reflexivity|cbn; discriminate|].
  eapply G; [apply st_restart with (s := {| at_ := Running true; kp := true; cpv := false; cur := Nk; prev := C 1; last := 1 |}); reflexivity|cbn; discriminate|].
  eapply G; [apply st_check with (s := {| at_ := Checking; kp := true; cpv := false; cur := Nk; prev := C 1; last := 1 |}); reflexivity|cbn; discriminate|].
  eapply G; [eapply st_mkdir_there with (s := {| at_ := Making; kp := true; cpv := false; cur := Nk; prev := C 1; last := 1 |}); reflexivity|cbn; discriminate|].
  eapply G; [apply st_start_keep with (s := {| at_ := Start; kp := false; cpv := false; cur := Nk; prev := C 1; last := 1 |}); [reflexivity|exact Logic.I]|cbn; discriminate|].
  eapply G; [apply st_stop with (s := {| at_ := Running true; kp := false; cpv := false; cur := Nk; prev := C 1; last := 1 |})|cbn; discriminate|].
  eapply G; [apply st_check with (s := {| at_ := Checking; kp := false; cpv := false; cur := Nk; prev := C 1; last := 1 |}); reflexivity|cbn; discriminate|].
  eapply G; [apply st_mkdir with (s := {| at_ := Making; kp := false; cpv := false; cur := None; prev := C 1; last := 1 |}); reflexivity|cbn; discriminate|].
  eapply G; [eapply st_mv with (s := {| at_ := Renaming; kp := false; cpv := false; cur := C 1; prev := None; last := 1 |}); reflexivity|cbn; discriminate|].
  eapply G; [apply st_rm_done with (s := {| at_ := Removing; kp := false; cpv := false; cur := C 1; prev := None; last := 1 |}); reflexivity|cbn; discriminate|].
  eapply G; [apply st_start with (s := {| at_ := Start; kp := true; cpv := false; cur := C 1; prev := None; last := 1 |}); [reflexivity|exact Logic.I|reflexivity]|cbn; discriminate|].
  eapply G; [apply st_stop with (s := {| at_ := Running false; kp := true; cpv := false; cur := C 1; prev := None; last := 1 |})|cbn; discriminate|].
  eapply G; [eapply st_write with (s := {| at_ := Running false; kp := true; cpv := false; cur := Nk; prev := None; last := 0 |}); reflexivity|cbn; discriminate|].
  eapply G; [apply st_check with (s := {| at_ := Checking; kp := true; cpv := false; cur := Nk; prev := None; last := 0 |}); reflexivity|cbn; discriminate|].
  eapply G; [apply st_mkdir with (s := {| at_ := Making; kp := true; cpv := false; cur := None; prev := None; last := 0 |}); reflexivity|cbn; discriminate|].
  eapply G; [apply st_start_keep with (s := fresh); [reflexivity|exact Logic.I]|cbn; discriminate|].
  apply rn_refl.
Qed.
Print Assumptions C22_keep_refuted.
