(** Lemmas for variable lists (C07). *)
From Verif Require Import Base Tensors_model Vars_model Vars_spec Vars_api_spec Vars_proofs.

Lemma upd_app {A} (a : list A) x r y i : i = List.length a -> upd (a ++ x :: r) i y = a ++ y :: r.
Proof. intros ->. induction a as [|z a IH]; simpl; auto. now rewrite IH. Qed.
Lemma nth_error_mid {A} (a : list A) x r i : i = List.length a -> nth_error (a ++ x :: r) i = Some x.
Proof. intros ->. rewrite nth_error_app2 by lia. now rewrite Nat.sub_diag. Qed.

Lemma vl_is_alloc : vl_is vlalloc [].
Proof. exists []. split; reflexivity. Qed.

Lemma realloc_grow l rest n m : n = List.length l ->
  exists rest', realloc_buf (map Some l ++ rest) (n + m) = map Some l ++ rest' /\ List.length rest' = m.
Proof.
  intros ->. unfold realloc_buf. exists (firstn m rest ++ repeat None (m - List.length rest)). split.
  - rewrite <- (map_length Some l) at 1. rewrite firstn_app_2, <- app_assoc. f_equal. f_equal. f_equal.
    rewrite app_length, map_length. lia.
  - rewrite app_length, firstn_length, repeat_length. lia.
Qed.

Lemma vl_set_mid v l x rest i y : vl_buf v = map Some l ++ x :: rest -> i = List.length l ->
  vl_set v i (Some y) = Ok {| vl_buf := map Some (l ++ [y]) ++ rest; vl_n := vl_n v |}.
Proof.
  intros B ->. unfold vl_set. rewrite B. replace (_ <? _) with true.
  2:{ symmetry. apply Nat.ltb_lt. rewrite app_length, map_length. simpl. lia. }
  f_equal. f_equal. rewrite upd_app by (now rewrite map_length). rewrite map_app, <- app_assoc. reflexivity.
Qed.

Lemma pushone_ok v l vi : vl_is v l -> exists v', vlpushone v vi = Ok v' /\ vl_is v' (l ++ [vi]).
Proof.
  intros (rest & B & N). unfold vlpushone. rewrite B.
  destruct (realloc_grow l rest (vl_n v) 1 N) as (rest' & -> & Lr).
  destruct rest' as [|x [|]]; try discriminate.
  rewrite (vl_set_mid _ l x []); [|reflexivity|simpl; lia].
  eexists. split; [reflexivity|]. exists []. split; [reflexivity|]. simpl. rewrite app_length. simpl. lia.
Qed.

Lemma zrange_S vi i : zrange vi (S i) = zrange vi i ++ [(vi + Z.of_nat i)%Z].
Proof. unfold zrange. rewrite seq_S, map_app. reflexivity. Qed.
Lemma zrange_length vi n : List.length (zrange vi n) = n.
Proof. unfold zrange. now rewrite map_length, seq_length. Qed.

Lemma push_loop_ok vi l : forall k i v rest,
  vl_buf v = map Some (l ++ zrange vi i) ++ rest -> List.length rest = k -> 
  push_loop k i (List.length l) vi v =
    Ok {| vl_buf := map Some (l ++ zrange vi (i + k)); vl_n := vl_n v |}.
Proof.
  induction k as [|k IH]; intros i v rest B Lr.
  - destruct rest; try discriminate. simpl. rewrite Nat.add_0_r. rewrite app_nil_r in B. destruct v as [b n]. simpl in *. now subst.
  - destruct rest as [|x rest]; try discriminate. simpl.
    rewrite (vl_set_mid _ (l ++ zrange vi i) x rest); auto.
    2:{ rewrite app_length, zrange_length. lia. }
    cbn [rbind]. rewrite (IH (S i) _ rest).
    + replace (i + S k) with (S i + k) by lia. reflexivity.
    + simpl. rewrite zrange_S, <- app_assoc. reflexivity.
    + simpl in Lr. lia.
Qed.

Section S.
Variable D : Type.
Lemma vlpush_ok (s : vstate D) ds v l k f n : Lay D s ds -> vl_is v l ->
  nth_error (registry ds) k = Some (f, 0, n) ->
  exists v', vlpush D s v (Z.of_nat k) = Ok v' /\ vl_is v' (l ++ zrange (Z.of_nat k) n).
Proof.
  intros L (rest & B & N) H. unfold vlpush.
  rewrite (query_ncomp D _ _ _ _ _ _ L H). cbn [rbind].
  rewrite (query_comp0 D _ _ _ _ _ _ L H). cbn [rbind]. rewrite Nat.sub_0_r, Z.eqb_refl. cbn [negb].
  rewrite Nat2Z.id, B. destruct (realloc_grow l rest (vl_n v) n N) as (rest' & -> & Lr).
  replace (vl_n v + n - n) with (List.length l) by lia.
  rewrite (push_loop_ok _ l n 0 _ rest'); auto.
  - eexists. split; [reflexivity|]. exists []. simpl. rewrite app_nil_r. split; auto.
    rewrite app_length, zrange_length. lia.
  - simpl. unfold zrange. simpl. now rewrite app_nil_r.
Qed.
Lemma vlpush_err (s : vstate D) ds v k f j n : Lay D s ds ->
  nth_error (registry ds) k = Some (f, j, n) -> j <> 0 -> vlpush D s v (Z.of_nat k) = Err.
Proof.
  intros L H J. unfold vlpush. pose proof (registry_group _ _ _ _ _ H) as (A & _).
  rewrite (query_ncomp D _ _ _ _ _ _ L H). cbn [rbind].
  rewrite (query_comp0 D _ _ _ _ _ _ L H). cbn [rbind].
  replace (_ =? _)%Z with false; [reflexivity|]. symmetry. apply Z.eqb_neq. lia.
Qed.

(** vlpushvl *)
Lemma pushvl_loop_ok l u : forall todo done v rest urest,
  vl_buf u = map Some (done ++ todo) ++ urest ->
  vl_buf v = map Some (l ++ done) ++ rest -> List.length rest = List.length todo ->
  pushvl_loop (List.length todo) (List.length done) (List.length l) u v =
   Ok {| vl_buf := map Some (l ++ done ++ todo); vl_n := vl_n v |}.
Proof.
  induction todo as [|y todo IH]; intros done v rest urest Bu Bv Lr.
  - destruct rest; try discriminate. simpl. rewrite !app_nil_r in *. destruct v; simpl in *; now subst.
  - destruct rest as [|x rest]; try discriminate. cbn [List.length pushvl_loop].
    unfold vl_get. rewrite Bu, map_app, <- app_assoc. cbn [map app].
    rewrite nth_error_mid by (now rewrite map_length). cbn [rbind].
    rewrite (vl_set_mid _ (l ++ done) x rest); auto. 2:{ now rewrite app_length. }
    cbn [rbind]. specialize (IH (done ++ [y]) {| vl_buf := map Some ((l ++ done) ++ [y]) ++ rest; vl_n := vl_n v |} rest urest).
    replace (S (List.length done)) with (List.length (done ++ [y])) by (rewrite app_length; simpl; lia).
    rewrite IH.
    + simpl. rewrite <- !app_assoc. reflexivity.
    + rewrite Bu, <- app_assoc. reflexivity.
    + simpl. rewrite <- app_assoc. reflexivity.
    + simpl in Lr. lia.
Qed.
Lemma vlpushvl_ok v u l m : vl_is v l -> vl_is u m -> exists v', vlpushvl v u = Ok v' /\ vl_is v' (l ++ m).
Proof.
  intros (rest & B & N) (urest & Bu & Nu). unfold vlpushvl. rewrite B.
  destruct (realloc_grow l rest (vl_n v) (vl_n u) N) as (rest' & -> & Lr).
  replace (vl_n v + vl_n u - vl_n u) with (List.length l) by lia. rewrite Nu.
  pose proof (pushvl_loop_ok l u m [] {| vl_buf := map Some l ++ rest'; vl_n := vl_n v + List.length m |} rest' urest) as P.
  cbn [List.length app] in P. rewrite P; auto.
  - eexists. split; [reflexivity|]. exists []. simpl. rewrite app_nil_r. split; auto. rewrite app_length. lia.
  - simpl. now rewrite app_nil_r.
  - congruence.
Qed.

(** vlpushvl(v,v) leaves the new half unwritten. *)
Lemma upd_same {A} (l : list A) i x : nth_error l i = Some x -> upd l i x = l.
Proof. revert i. induction l as [|y l IH]; intros [|i] H; simpl in *; try discriminate; auto; [congruence|]. now rewrite IH. Qed.
Lemma self_loop_id v : forall k i, i + k <= List.length (vl_buf v) -> pushvl_self_loop k i 0 v = Ok v.
Proof.
  induction k as [|k IH]; intros i H; simpl; auto.
  unfold vl_get. destruct (nth_error (vl_buf v) i) as [x|] eqn:Ex. 2:{ apply nth_error_None in Ex. lia. }
  cbn [rbind]. unfold vl_set. replace (i <? _) with true by (symmetry; apply Nat.ltb_lt; lia). cbn [rbind].
  rewrite (upd_same _ _ _ Ex). destruct v. simpl. apply IH. simpl in *. lia.
Qed.
Lemma pushvl_self v l : vl_is v l -> List.length (vl_buf v) = List.length l ->
  exists v', vlpushvl_self v = Ok v' /\ vl_n v' = 2 * List.length l /\
    vl_buf v' = map Some l ++ repeat None (List.length l).
Proof.
  intros (rest & B & N) Lb. assert (rest = []) as ->.
  { rewrite B, app_length, map_length in Lb. destruct rest; auto. simpl in Lb. lia. }
  unfold vlpushvl_self. rewrite app_nil_r in B.
  assert (R : realloc_buf (vl_buf v) (vl_n v + vl_n v) = map Some l ++ repeat None (List.length l)).
  { unfold realloc_buf. rewrite B. rewrite firstn_all2 by (rewrite map_length; lia). f_equal. f_equal. rewrite map_length. lia. }
  rewrite R. cbn [vl_n]. rewrite Nat.sub_diag. rewrite self_loop_id.
  - eexists. split; [reflexivity|]. simpl. split; auto; lia.
  - simpl. rewrite app_length, map_length, repeat_length. lia.
Qed.

(** dropping *)
Lemma shift_ok a : forall b x v rest, vl_buf v = a ++ map Some (x :: b) ++ rest ->
  exists z, shift_loop (List.length b) (List.length a) v =
    Ok {| vl_buf := a ++ map Some b ++ z :: rest; vl_n := vl_n v |}.
Proof.
  revert a. assert (G : forall b a x v rest, vl_buf v = a ++ map Some (x :: b) ++ rest ->
  exists z, shift_loop (List.length b) (List.length a) v =
    Ok {| vl_buf := a ++ map Some b ++ z :: rest; vl_n := vl_n v |}); [|eauto].
  induction b as [|y b IH]; intros a x v rest B.
  - exists (Some x). simpl in *. destruct v; simpl in *; now subst.
  - cbn [List.length shift_loop]. cbn [map app] in B. unfold vl_get. rewrite B.
    assert (nth_error (a ++ Some x :: Some y :: map Some b ++ rest) (List.length a + 1) = Some (Some y)) as ->.
    { change (a ++ Some x :: Some y :: map Some b ++ rest) with (a ++ [Some x] ++ Some y :: map Some b ++ rest).
      rewrite app_assoc. apply nth_error_mid. rewrite app_length. reflexivity. }
    cbn [rbind]. unfold vl_set. rewrite B. replace (_ <? _) with true.
    2:{ symmetry. apply Nat.ltb_lt. rewrite app_length. simpl. lia. }
    cbn [rbind]. rewrite upd_app by auto.
    destruct (IH (a ++ [Some y]) y {| vl_buf := a ++ Some y :: Some y :: map Some b ++ rest; vl_n := vl_n v |} rest) as [z Hz].
    { simpl. rewrite <- app_assoc. reflexivity. }
    exists z. replace (S (List.length a)) with (List.length (a ++ [Some y])) by (rewrite app_length; simpl; lia).
    rewrite Hz. simpl. rewrite <- app_assoc. reflexivity.
Qed.
Lemma drop_loop_ok vi : forall todo done v rest,
  vl_buf v = map Some (done ++ todo) ++ rest -> vl_n v = List.length (done ++ todo) ->
  exists v', drop_loop (List.length todo) (List.length done) vi v = Ok v' /\ vl_is v' (done ++ remove1 vi todo).
Proof.
  induction todo as [|y todo IH]; intros done v rest B N.
  - simpl. exists v. split; auto. exists rest. auto.
  - cbn [List.length drop_loop remove1]. unfold vl_get.
    assert (nth_error (vl_buf v) (List.length done) = Some (Some y)) as ->.
    { rewrite B, map_app, <- app_assoc. cbn [map app]. apply nth_error_mid. now rewrite map_length. }
    cbn [rbind].
    destruct (y =? vi)%Z eqn:Eq.
    + destruct (shift_ok (map Some done) todo y {| vl_buf := vl_buf v; vl_n := vl_n v - 1 |} rest) as [z Hz].
      { simpl. rewrite B, map_app, <- app_assoc. reflexivity. }
      rewrite map_length in Hz. cbn [vl_n]. replace (vl_n v - 1 - List.length done) with (List.length todo).
      2:{ rewrite N, app_length. simpl. lia. }
      rewrite Hz. eexists. split; [reflexivity|]. exists (z :: rest). simpl. split.
      * rewrite map_app, <- app_assoc. reflexivity.
      * rewrite N, !app_length. simpl. lia.
    + destruct (IH (done ++ [y]) v rest) as (v' & Hv & Is).
      { rewrite B, <- app_assoc. reflexivity. }
      { rewrite N, <- app_assoc. reflexivity. }
      exists v'. replace (S (List.length done)) with (List.length (done ++ [y])) by (rewrite app_length; simpl; lia).
      split; auto. rewrite <- app_assoc in Is. exact Is.
Qed.
Lemma dropone_ok v l vi : vl_is v l -> exists v', vldropone v vi = Ok v' /\ vl_is v' (remove1 vi l).
Proof.
  intros (rest & B & N). unfold vldropone. rewrite N.
  destruct (drop_loop_ok vi l [] v rest B N) as (v' & H & Is). exists v'. split; auto.
Qed.
Lemma vldrop_loop_ok k : forall v l vi, vl_is v l ->
  exists v', vldrop_loop k vi v = Ok v' /\ vl_is v' (fold_left (fun m i => remove1 i m) (zrange vi k) l).
Proof.
  induction k as [|k IH]; intros v l vi H; cbn [vldrop_loop].
  - simpl. eauto.
  - destruct (dropone_ok v l vi H) as (v1 & -> & I1). cbn [rbind].
    destruct (IH v1 _ (vi + 1)%Z I1) as (v2 & E2 & I2). exists v2. split; auto.
    assert (zrange vi (S k) = vi :: zrange (vi + 1) k) as ->; auto.
    unfold zrange. cbn [seq map Z.of_nat]. rewrite Z.add_0_r. f_equal.
    rewrite <- seq_shift, map_map. apply map_ext. intros. lia.
Qed.
Lemma vldrop_ok (s : vstate D) ds v l k f j n : Lay D s ds -> vl_is v l ->
  nth_error (registry ds) k = Some (f, j, n) ->
  exists v', vldrop D s v (Z.of_nat k) = Ok v' /\
    vl_is v' (fold_left (fun m i => remove1 i m) (zrange (Z.of_nat k) n) l).
Proof.
  intros L Is H. unfold vldrop. rewrite (query_ncomp D _ _ _ _ _ _ L H). cbn [rbind]. rewrite Nat2Z.id.
  now apply vldrop_loop_ok.
Qed.
Lemma vldropn_ok v l n : vl_is v l -> vl_is (vldropn v n) (firstn (List.length l - Z.to_nat n) l).
Proof.
  intros (rest & B & N). unfold vldropn. destruct (Z.leb_spec n 0).
  - replace (Z.to_nat n) with 0 by lia. rewrite Nat.sub_0_r, firstn_all. exists rest. auto.
  - rewrite Z.geb_leb. destruct (Z.leb_spec (Z.of_nat (vl_n v)) n).
    + replace (List.length l - Z.to_nat n) with 0 by lia. simpl. exists (vl_buf v). auto.
    + exists (map Some (skipn (List.length l - Z.to_nat n) l) ++ rest). simpl. split.
      * rewrite B, app_assoc, <- map_app, firstn_skipn. reflexivity.
      * rewrite firstn_length, N. lia.
Qed.
Lemma dup_loop_ok v : forall todo done u rest,
  vl_buf v = map Some (done ++ todo) ++ rest -> vl_is u done ->
  exists u', dup_loop (List.length todo) (List.length done) v u = Ok u' /\ vl_is u' (done ++ todo).
Proof.
  induction todo as [|y todo IH]; intros done u rest B Is.
  - simpl. exists u. rewrite app_nil_r. auto.
  - cbn [List.length dup_loop]. unfold vl_get. rewrite B, map_app, <- app_assoc. cbn [map app].
    rewrite nth_error_mid by (now rewrite map_length). cbn [rbind].
    destruct (pushone_ok u done y Is) as (u1 & -> & I1). cbn [rbind].
    destruct (IH (done ++ [y]) u1 rest) as (u2 & E2 & I2); auto. { rewrite B, <- app_assoc. reflexivity. }
    exists u2. replace (S (List.length done)) with (List.length (done ++ [y])) by (rewrite app_length; simpl; lia).
    split; auto. rewrite <- app_assoc in I2. exact I2.
Qed.
Lemma duplicate_ok v l : vl_is v l -> exists u, vlduplicate v = Ok u /\ vl_is u l.
Proof.
  intros (rest & B & N). unfold vlduplicate. rewrite N.
  destruct (dup_loop_ok v l [] vlalloc rest B vl_is_alloc) as (u & H & Is). eauto.
Qed.
End S.
