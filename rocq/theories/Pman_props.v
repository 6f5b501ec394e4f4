(** C94: the check for numbers that are not finite.  C95: parameters set from other parameters, and the time step. *)
From Coq Require Import DecimalNat DecimalString.
From Verif Require Import Rutil Params_model Params_spec Params_db_proofs Params_props Evolve_model Evolve_props Pman_model.
Local Open Scope R_scope.

(** ** C94 *)
Section N.
Variable V : Type.
Variable bad : V -> bool.
(** all values of a variable in the boxes where it has storage *)
Definition stored_values (vs : list (option (list V))) : list V := concat (map (fun o => match o with Some l => l | None => [] end) vs).
Definition nbad (l : list V) : nat := List.length (filter bad l).
Lemma points_count b var : forall ps s s', points_loop V bad b var ps s = Ok s' -> num V s' = (num V s + nbad (flat_map (fun p => match nth_error var p with Some v => [v] | None => [] end) ps))%nat.
Proof.
  unfold nbad. induction ps as [|p ps IH]; intros s s' H; cbn [points_loop flat_map] in *. { injection H as <-. cbn. lia. }
  unfold point in H. destruct (nth_error var p) as [v|]; [|discriminate]. cbn [app filter]. destruct (bad v).
  - apply IH in H. cbn [num] in H. cbn [List.length]. lia.
  - destruct (1 <? mflag V s)%nat.
    + destruct (old V s) as [[po bo]|]; [|discriminate]. destruct (nth_error var po); [|discriminate]. apply IH in H. exact H.
    + apply IH in H. exact H.
Qed.
Lemma all_points (var : list V) : flat_map (fun p => match nth_error var p with Some v => [v] | None => [] end) (seq 0 (List.length var)) = var.
Proof.
  induction var as [|v var IH] using rev_ind; auto. rewrite app_length. cbn [List.length]. rewrite Nat.add_1_r, seq_S, flat_map_app. cbn [flat_map].
  rewrite nth_error_app2 by lia. replace (0 + List.length var - List.length var)%nat with 0%nat by lia. cbn. f_equal.
  rewrite <- IH at 2. rewrite !flat_map_concat_map. f_equal. apply map_ext_in. intros p Hp. apply in_seq in Hp. rewrite nth_error_app1 by lia. reflexivity.
Qed.
Lemma boxes_count : forall vs b s s', boxes_loop V bad b vs s = Ok s' -> num V s' = (num V s + nbad (stored_values vs))%nat.
Proof.
  induction vs as [|[var|] vs IH]; intros b s s' H; cbn [boxes_loop] in H.
  - injection H as <-. cbn. lia.
  - destruct (points_loop V bad b var (seq 0 (List.length var)) s) as [s1| |] eqn:E; try discriminate. apply points_count in E. rewrite all_points in E. apply IH in H.
    unfold stored_values, nbad in *. cbn [map concat]. rewrite filter_app, app_length. lia.
  - apply IH in H. exact H.
Qed.
(** C94: the number that is returned is the number of bad values; it is 0 if and only if there is none. *)
Theorem C94_count : forall vs n m, CheckIfFinite V bad vs = Ok (n, m) -> n = nbad (stored_values vs) /\ (n = 0%nat <-> forall v, In v (stored_values vs) -> bad v = false).
Proof.
  intros vs n m H. unfold CheckIfFinite in H. destruct (boxes_loop _ _ _ _ _) as [s| |] eqn:E; try discriminate. injection H as <- _. apply boxes_count in E. cbn [num] in E.
  split; [lia|]. rewrite E. cbn. unfold nbad. split.
  - intros Z v Hv. destruct (bad v) eqn:B; auto. assert (I : In v (filter bad (stored_values vs))) by (apply filter_In; auto). destruct (filter bad (stored_values vs)); [destruct I|discriminate].
  - intros A. destruct (filter bad (stored_values vs)) eqn:F; auto. assert (I : In v (filter bad (stored_values vs))) by (rewrite F; now left). apply filter_In in I. destruct I as [I B]. rewrite A in B by auto. discriminate.
Qed.
(** the list version *)
Theorem C94_list : forall vl n, CheckIfFinite_VarList V bad vl = Ok n -> n = nbad (concat (map stored_values vl)).
Proof.
  induction vl as [|vs vl IH]; intros n H; cbn [CheckIfFinite_VarList] in H. { now injection H as <-. }
  destruct (CheckIfFinite V bad vs) as [[k m]| |] eqn:E; try discriminate. destruct (CheckIfFinite_VarList V bad vl) as [r| |]; try discriminate. injection H as <-.
  apply C94_count in E. destruct E as [-> _]. rewrite (IH r eq_refl). unfold nbad. cbn [map concat]. rewrite filter_app, app_length. reflexivity.
Qed.
(** The check is safe if the boxes with storage do not get smaller: the message about the end of a run of bad values then reads values that exist. *)
Fixpoint growing (n : nat) (vs : list (option (list V))) : Prop :=
  match vs with [] => True | None :: r => growing n r | Some l :: r => (n <= List.length l)%nat /\ growing (List.length l) r end.
Definition good_old (n : nat) (s : nst V) : Prop := (mflag V s <> 0%nat -> exists p b, old V s = Some (p, b) /\ (p < n)%nat).
Lemma points_safe b var : forall ps s, Forall (fun p => (p < List.length var)%nat) ps -> good_old (List.length var) s -> exists s', points_loop V bad b var ps s = Ok s' /\ good_old (List.length var) s'.
Proof.
  induction ps as [|p ps IH]; intros s F G; cbn [points_loop]. { eauto. }
  inversion F as [|? ? Hp F']; subst. unfold point. destruct (nth_error var p) as [v|] eqn:E; [|apply nth_error_None in E; lia].
  destruct (bad v).
  - apply IH; auto. intros _. cbn [old]. eauto.
  - destruct (Nat.ltb_spec 1 (mflag V s)) as [L|L].
    + destruct G as (po & bo & Ho & Hl); [lia|]. rewrite Ho. destruct (nth_error var po) as [vo|] eqn:Eo; [|apply nth_error_None in Eo; lia].
      apply IH; auto. intros N. cbn [mflag] in N. contradiction.
    + apply IH; auto. intros N. cbn [mflag] in N. contradiction.
Qed.
Lemma boxes_safe : forall vs n b s, growing n vs -> good_old n s -> exists s', boxes_loop V bad b vs s = Ok s'.
Proof.
  induction vs as [|[var|] vs IH]; intros n b s G O; cbn [boxes_loop growing] in *. { eauto. }
  - destruct G as [L G]. destruct (points_safe b var (seq 0 (List.length var)) s) as (s1 & -> & O1).
    + apply Forall_forall. intros p Hp. apply in_seq in Hp. lia.
    + intros N. destruct (O N) as (p & b0 & H & H1). exists p, b0. split; auto. lia.
    + now apply (IH (List.length var)).
  - now apply (IH n).
Qed.
Theorem C94_safe_partial : forall vs, growing 0 vs -> exists n m, CheckIfFinite V bad vs = Ok (n, m).
Proof.
  intros vs G. unfold CheckIfFinite. destruct (boxes_safe vs 0 0 {| old := None; mflag := 0; num := 0; out := [] |} G) as (s & ->); eauto. intros N. cbn in N. contradiction.
Qed.
End N.
Print Assumptions C94_count.
Print Assumptions C94_list.
Print Assumptions C94_safe_partial.
(** A box of three points whose last two are bad, then a box of one good point: the message reads point 2 of the second box. *)
Theorem C94_safe_refuted : CheckIfFinite bool (fun b => b) [Some [false; true; true]; Some [false]] = UB.
Proof. reflexivity. Qed.
Print Assumptions C94_safe_refuted.
Example C94_case : CheckIfFinite bool (fun b => b) [Some [false; true; true]; None; Some [false; true; false; true]] = Ok (4, [First bool 1 0 true; Til bool 2 0 false; First bool 1 2 true; First bool 3 2 true])%nat /\
  growing bool 0 [Some [false; true; true]; None; Some [false; true; false; true]].
Proof. split; [reflexivity|]. cbn. lia. Qed.

(** The hook stops the run: after the iteration in which the check finds something no other iteration is made.  The functions of this iteration that come later,
    output and checkpoint among them, see the iteration number limit + 1 and the time (limit + 1) dt. *)
Theorem C94_stop : forall (W : Type) finaltime iterations (hook : bin -> estate W -> estate W) check s s' n,
  (forall b s, b <> POST_EVOLVE -> it _ (hook b s) = it _ s /\ tm _ (hook b s) = tm _ s /\ dt _ (hook b s) = dt _ s /\ finaltime (w _ (hook b s)) = finaltime (w _ s) /\ iterations (w _ (hook b s)) = iterations (w _ s)) ->
  (forall s, hook POST_EVOLVE s = ExitIfNAN W finaltime iterations check s) ->
  check (w _ (hook PRE_POST_EVOLVE (hook EVOLVE (hook PRE_EVOLVE s)))) <> 0%nat ->
  limit W finaltime iterations s n -> (it _ s < n)%Z -> while_below W finaltime iterations hook s s' ->
  s' = one_iteration W hook s /\ it _ s' = (n + 1)%Z /\ tm _ s' = IZR (n + 1) * dt _ s.
Proof.
  intros W finaltime iterations hook check s s' n Q HP CK L LT WB.
  assert (F : forall s1 s2, dt _ s1 = dt _ s2 -> finaltime (w _ s1) = finaltime (w _ s2) -> iterations (w _ s1) = iterations (w _ s2) -> itmax_of W finaltime iterations s1 = itmax_of W finaltime iterations s2).
  { intros s1 s2 H1 H2 H3. unfold itmax_of. rewrite H1, H2, H3. reflexivity. }
  set (s3 := hook PRE_POST_EVOLVE (hook EVOLVE (hook PRE_EVOLVE s))) in *.
  assert (Q3 : it _ s3 = it _ s /\ tm _ s3 = tm _ s /\ dt _ s3 = dt _ s /\ finaltime (w _ s3) = finaltime (w _ s) /\ iterations (w _ s3) = iterations (w _ s)).
  { unfold s3. destruct (Q PRE_POST_EVOLVE (hook EVOLVE (hook PRE_EVOLVE s))) as (A1 & A2 & A3 & A4 & A5); [discriminate|].
    destruct (Q EVOLVE (hook PRE_EVOLVE s)) as (B1 & B2 & B3 & B4 & B5); [discriminate|]. destruct (Q PRE_EVOLVE s) as (C1 & C2 & C3 & C4 & C5); [discriminate|].
    repeat split; congruence. }
  destruct Q3 as (I3 & T3 & D3 & F3 & N3).
  assert (E4 : hook POST_EVOLVE s3 = {| it := n; tm := tm _ s3; dt := dt _ s3; w := w _ s3 |}).
  { rewrite HP. unfold ExitIfNAN. destruct (Nat.eqb_spec (check (w _ s3)) 0); [contradiction|]. rewrite (F s3 s) by auto. apply limit_fun in L. now rewrite <- L. }
  set (s5 := {| it := (n + 1)%Z; tm := IZR (n + 1) * dt _ s3; dt := dt _ s3; w := w _ s3 |}).
  assert (E5 : one_iteration W hook s = hook CHECKPOINT (hook POST_OUTPUT (hook OUTPUT (hook ANALYZE s5)))).
  { unfold one_iteration. fold s3. rewrite E4. reflexivity. }
  destruct (Q ANALYZE s5) as (A1 & A2 & A3 & A4 & A5); [discriminate|]. set (s6 := hook ANALYZE s5) in *.
  destruct (Q OUTPUT s6) as (B1 & B2 & B3 & B4 & B5); [discriminate|]. set (s7 := hook OUTPUT s6) in *.
  destruct (Q POST_OUTPUT s7) as (C1 & C2 & C3 & C4 & C5); [discriminate|]. set (s8 := hook POST_OUTPUT s7) in *.
  destruct (Q CHECKPOINT s8) as (G1 & G2 & G3 & G4 & G5); [discriminate|]. set (s9 := hook CHECKPOINT s8) in *.
  assert (I9 : it _ s9 = (n + 1)%Z) by (rewrite G1, C1, B1, A1; reflexivity).
  assert (T9 : tm _ s9 = IZR (n + 1) * dt _ s) by (rewrite G2, C2, B2, A2; cbn [tm s5]; now rewrite D3).
  assert (L9 : limit W finaltime iterations s9 n).
  { apply limit_fun in L. rewrite L. rewrite <- (F s9 s); [apply limit_itmax|rewrite G3, C3, B3, A3; exact D3|rewrite G4, C4, B4, A4; exact F3|rewrite G5, C5, B5, A5; exact N3]. }
  inversion WB as [? n' L' G|? ? n' L' G WB']; subst.
  - apply limit_fun in L, L'. lia.
  - rewrite E5 in *. fold s9. assert (E : s' = s9). { inversion WB' as [|? ? m Lm Gm]; subst; auto. apply limit_fun in Lm, L9. lia. }
    subst s'. auto.
Qed.
Print Assumptions C94_stop.
(** a case: the check fires at once, the limit is 3 *)
Example C94_stop_case : let hook := fun (b : bin) (s : estate nat) => match b with POST_EVOLVE => ExitIfNAN nat (fun _ => 0) (fun _ => 3%Z) (fun n => n) s | _ => s end in
  let s := {| it := 0%Z; tm := 0; dt := 1/2; w := 1%nat |} in
  while_below nat (fun _ => 0) (fun _ => 3%Z) hook s (one_iteration nat hook s) /\ it _ (one_iteration nat hook s) = 4%Z.
Proof.
  cbv zeta. set (hook := fun (b : bin) (s : estate nat) => _). set (s := Build_estate _ _ _ _ _).
  assert (L : forall s, limit nat (fun _ => 0) (fun _ => 3%Z) s 3%Z) by (intros t; split; intros; [lra|reflexivity]).
  assert (E : it _ (one_iteration nat hook s) = 4%Z). { unfold one_iteration, hook, ExitIfNAN. cbn. unfold itmax_of. cbn. destruct (Rlt_dec 0 0); [lra|reflexivity]. }
  split; [|exact E]. apply (wb_go nat _ _ hook s _ 3%Z); [apply L|cbn; lia|]. apply (wb_stop nat _ _ hook _ 3%Z); [apply L|lia].
Qed.

(** ** C95 *)
Lemma setp_same s n v : setp s n v n = Some v.
Proof. unfold setp. now rewrite (proj2 (str_eqb_eq n n) eq_refl). Qed.
Lemma setp_other s n v m : m <> n -> setp s n v m = s m.
Proof. intros H. unfold setp. destruct (str_eqb m n) eqn:E; auto. apply str_eqb_eq in E. contradiction. Qed.
(** the names of the box parameters are all different *)
Lemma digits u : Forall (fun c => c <> "_"%char) (list_ascii_of_string (NilEmpty.string_of_uint u)).
Proof. induction u; cbn; constructor; auto; discriminate. Qed.
Lemma dec_inj a b : dec a = dec b -> a = b.
Proof.
  intros H. apply Unsigned.to_uint_inj.
  assert (E : NilEmpty.string_of_uint (Nat.to_uint a) = NilEmpty.string_of_uint (Nat.to_uint b)).
  { unfold dec in H. rewrite <- (string_of_list_ascii_of_string (NilEmpty.string_of_uint (Nat.to_uint a))), H. apply string_of_list_ascii_of_string. }
  apply (f_equal NilEmpty.uint_of_string) in E. rewrite !NilEmpty.usu in E. now injection E.
Qed.
Lemma split_at (x : ascii) : forall a a' b b', Forall (fun c => c <> x) a -> Forall (fun c => c <> x) a' -> a ++ x :: b = a' ++ x :: b' -> a = a' /\ b = b'.
Proof.
  induction a as [|c a IH]; intros [|c' a'] b b' F F' H; cbn in H.
  - injection H as ->. auto.
  - injection H as <- _. inversion F'; subst. contradiction.
  - injection H as -> _. inversion F; subst. contradiction.
  - injection H as <- H. inversion F; inversion F'; subst. destruct (IH a' b b') as [-> ->]; auto.
Qed.
Definition short (b : nat) : Prop := (List.length (dec b) <= 900)%nat.
Lemma key_short k : In k keys -> (List.length k <= 10)%nat.
Proof. intros H. unfold keys in H. cbn [In] in H. repeat (destruct H as [<-|H]; [cbn; lia|]). destruct H. Qed.
Lemma boxname_full b k : short b -> In k keys -> boxname b k = S_ "box" ++ dec b ++ "_"%char :: k.
Proof.
  intros Hb Hk. unfold boxname, snprintf999. apply firstn_all2. apply key_short in Hk. unfold short in Hb.
  rewrite !app_length. change (List.length (S_ "box")) with 3%nat. change (List.length (S_ "_")) with 1%nat. cbn [List.length]. lia.
Qed.
Lemma boxname_inj b k b' k' : short b -> short b' -> In k keys -> In k' keys -> boxname b k = boxname b' k' -> b = b' /\ k = k'.
Proof.
  intros Hb Hb' Hk Hk' H. rewrite !boxname_full in H by auto. apply app_inv_head in H. apply split_at in H; [|apply digits|apply digits]. destruct H as [H ->]. split; auto. now apply dec_inj.
Qed.
Lemma boxname_key b k : short b -> In k keys -> ~ In (boxname b k) keys.
Proof.
  intros Hb Hk H. rewrite boxname_full in H by auto. unfold keys in H. cbn [In] in H. change (S_ "box") with ["b"; "o"; "x"]%char in H. cbn [app] in H.
  repeat (destruct H as [H|H]; [discriminate H|]). exact H.
Qed.
(** what one parameter of a box becomes *)
Definition wanted (s : pars) (k : str) (v : str) (v' : str) : Prop :=
  (getv v k = true -> exists g, s k = Some g /\ v' = snprintf999 (g ++ S_ " " ++ k)) /\ (getv v k = false -> v' = v).
Lemma set_key_spec b s k s' : short b -> In k keys -> set_key b s k = Ok s' ->
  (exists v v', s (boxname b k) = Some v /\ s' (boxname b k) = Some v' /\ wanted s k v v') /\ (forall m, m <> boxname b k -> s' m = s m).
Proof.
  intros Hb Hk H. unfold set_key in H. destruct (s (boxname b k)) as [v|] eqn:E; [|discriminate]. destruct (getv v k) eqn:G.
  - destruct (s k) as [g|] eqn:K; [|discriminate]. injection H as <-. split.
    + exists v, (snprintf999 (g ++ S_ " " ++ k)). rewrite setp_same. split; [auto|]. split; [auto|]. split; [eauto|congruence].
    + intros m Hm. now apply setp_other.
  - injection H as <-. split; [|auto]. exists v, v. split; [auto|]. split; [auto|]. split; [congruence|auto].
Qed.
Lemma set_keys_spec b (s0 : pars) : short b -> forall ks s s', NoDup ks -> incl ks keys -> (forall k, In k keys -> s k = s0 k) -> set_keys b ks s = Ok s' ->
  (forall k, In k ks -> exists v v', s (boxname b k) = Some v /\ s' (boxname b k) = Some v' /\ wanted s0 k v v') /\ (forall m, (forall k, In k ks -> m <> boxname b k) -> s' m = s m).
Proof.
  intros Hb. induction ks as [|k ks IH]; intros s s' ND IN K H; cbn [set_keys] in H. { injection H as <-. split; [intros k []|auto]. }
  destruct (set_key b s k) as [s1| |] eqn:E; try discriminate. apply set_key_spec in E; [|auto|apply IN; now left]. destruct E as ((v & v' & E1 & E2 & E3) & E4).
  inversion ND; subst. destruct (IH s1 s') as [A B]; auto. { intros x Hx. apply IN. now right. }
  { intros x Hx. rewrite E4; auto. intros X. subst x. apply (boxname_key b k); auto. apply IN. now left. }
  assert (D : forall x, In x ks -> boxname b x <> boxname b k).
  { intros x Hx X. apply boxname_inj in X; auto; [|apply IN; now right|apply IN; now left]. destruct X as [_ ->]. contradiction. }
  split.
  - intros x [<-|Hx].
    + exists v, v'. split; [auto|]. split. { rewrite B; [auto|]. intros y Hy X. apply (D y); auto. }
      destruct E3 as [E5 E6]. split; auto. intros G. destruct (E5 G) as (g & G1 & G2). exists g. split; [|exact G2]. rewrite <- K; [auto|apply IN; now left].
    + destruct (A x Hx) as (u & u' & A1 & A2 & A3). exists u, u'. split; [|auto]. rewrite <- A1. symmetry. apply E4. now apply D.
  - intros m Hm. rewrite B by (intros x Hx; apply Hm; now right). apply E4. apply Hm. now left.
Qed.
Lemma keys_nodup : NoDup keys.
Proof. unfold keys. repeat (constructor; [cbn [In]; intros X; repeat (destruct X as [X|X]; [discriminate X|]); destruct X|]). constructor. Qed.
Lemma set_boxes_spec (s0 : pars) : forall bs s s', NoDup bs -> Forall short bs -> (forall k, In k keys -> s k = s0 k) -> set_boxes bs s = Ok s' ->
  (forall b k, In b bs -> In k keys -> exists v v', s (boxname b k) = Some v /\ s' (boxname b k) = Some v' /\ wanted s0 k v v') /\ (forall m, (forall b k, In b bs -> In k keys -> m <> boxname b k) -> s' m = s m).
Proof.
  induction bs as [|b bs IH]; intros s s' ND SH K H; cbn [set_boxes] in H. { injection H as <-. split; [intros b k []|auto]. }
  destruct (set_keys b keys s) as [s1| |] eqn:E; try discriminate. inversion ND; inversion SH; subst.
  apply (set_keys_spec b s0) in E; [|auto|exact keys_nodup|apply incl_refl|auto]. destruct E as [E1 E2].
  destruct (IH s1 s') as [A B]; auto. { intros k Hk. rewrite E2; auto. intros x Hx X. apply (boxname_key b x); auto. now rewrite <- X. }
  assert (D : forall b' k k', In b' bs -> In k keys -> In k' keys -> boxname b' k <> boxname b k').
  { intros b' k k' Hb Hk Hk' X. apply boxname_inj in X; auto; [|rewrite Forall_forall in *; auto]. destruct X as [-> _]. contradiction. }
  split.
  - intros b' k [<-|Hb] Hk.
    + destruct (E1 k Hk) as (v & v' & E3 & E4 & E5). exists v, v'. split; [auto|]. split; [|auto]. rewrite B; [auto|]. intros b'' k'' Hb'' Hk'' X. symmetry in X. now apply (D b'' k'' k) in X.
    + destruct (A b' k Hb Hk) as (v & v' & A1 & A2 & A3). exists v, v'. split; [|auto]. rewrite <- A1. symmetry. apply E2. intros x Hx. now apply D.
  - intros m Hm. rewrite B by (intros x y Hx Hy; apply Hm; auto; now right). apply E2. intros x Hx. apply Hm; auto. now left.
Qed.
(** C95: after the parameters have been set, each of the twelve parameters of each box holds the value of the global parameter followed by its name if it named it, and its old
    value otherwise; no other parameter has changed.  (Box numbers with more than 900 digits excluded.) *)
Theorem C95_boxes : forall nboxes s s', (forall b, (b < nboxes)%nat -> short b) -> setPars_boxes nboxes s = Ok s' ->
  (forall b k, (b < nboxes)%nat -> In k keys -> exists v v', s (boxname b k) = Some v /\ s' (boxname b k) = Some v' /\ wanted s k v v') /\
  (forall m, (forall b k, (b < nboxes)%nat -> In k keys -> m <> boxname b k) -> s' m = s m).
Proof.
  intros nboxes s s' SH H. unfold setPars_boxes in H. destruct (set_boxes_spec s (seq 0 nboxes) s s') as [A B]; auto.
  - apply seq_NoDup.
  - apply Forall_forall. intros b Hb. apply in_seq in Hb. apply SH. lia.
  - split; [intros b k Hb; apply A; apply in_seq; lia|]. intros m Hm. apply B. intros b k Hb. apply Hm. apply in_seq in Hb. lia.
Qed.
Print Assumptions C95_boxes.
Lemma words_of_app g k : words_of (g ++ cSP :: k) = words_of g ++ words_of k.
Proof.
  induction g as [|c g IH]. { cbn [app words_of]. destruct (words_of k) eqn:W; [exfalso; now apply (words_of_nonempty k)|]. reflexivity. }
  cbn [app words_of]. cbn [app] in IH. rewrite IH. destruct (words_of g) eqn:W; [exfalso; now apply (words_of_nonempty g)|]. cbn [app]. destruct (ceq c cSP); reflexivity.
Qed.
(** A parameter that was set in this way still names the global one: if the program sets the parameters again, it gets the global value of that time.  (No word of the global value may end in the name.) *)
Theorem C95_again : forall k g, In k keys -> (List.length g <= 900)%nat -> (forall u, In u (words_of g) -> ~ exists x, u = x ++ k) ->
  getv (snprintf999 (g ++ S_ " " ++ k)) k = true.
Proof.
  intros k g Hk Lg H. unfold snprintf999. rewrite firstn_all2 by (apply key_short in Hk; rewrite !app_length; change (List.length (S_ " ")) with 1%nat; lia).
  assert (NS : nosp k). { unfold keys in Hk. cbn [In] in Hk. unfold nosp. repeat (destruct Hk as [<-|Hk]; [repeat constructor; discriminate|]). destruct Hk. }
  apply C03_getv_exact; [exact NS|]. exists (words_of g), []. change (S_ " " ++ k) with (cSP :: k). rewrite words_of_app. rewrite (words_of_nosp k NS). split; auto.
  apply Forall_forall. exact H.
Qed.
Print Assumptions C95_again.

(** The time step.  What a box asks for. *)
Definition asked (square : bool) (coeff dtfac n1 : R) : R := dtfac * (coeff / (if square then n1 ^ 2 else n1)).
Lemma asked_pos square coeff dtfac n1 : 0 < coeff -> 0 < dtfac -> 0 < n1 -> 0 < asked square coeff dtfac n1.
Proof. intros. unfold asked. apply Rmult_lt_0_compat; auto. apply Rdiv_lt_0_compat; auto. destruct square; auto. apply pow_lt; auto. Qed.
Lemma box_dt_val square coeff dtfac time n1 : snd (box_dt square coeff dtfac time n1) = if Rlt_dec 0 time then time / IZR (Rtrunc (1 + time / asked square coeff dtfac n1)) else asked square coeff dtfac n1.
Proof. unfold box_dt, asked. cbv zeta. destruct square; cbn [snd]; [replace (n1 ^ 2) with (n1 * n1) by ring|]; reflexivity. Qed.
Lemma dt_fold square coeff dtfac time : forall n1s st, let st' := fold_left (dt_step square coeff dtfac time) n1s st in let f := fun n1 => snd (box_dt square coeff dtfac time n1) in
  (forall n1, In n1 n1s -> dtmin st' <= f n1) /\ dtmin st' <= dtmin st /\
  ((dtmin st' = dtmin st /\ dt_par st' = dt_par st /\ (forall n1, In n1 n1s -> dtmin st <= f n1)) \/ (dtmin st' < dtmin st /\ dt_par st' = dtmin st' /\ exists n1, In n1 n1s /\ dtmin st' = f n1)).
Proof.
  induction n1s as [|n n1s IH]; intros st; cbn [fold_left]. { cbv zeta. split; [intros n1 []|]. split; [lra|]. left. split; [auto|]. split; [auto|]. intros n1 []. }
  set (st1 := dt_step square coeff dtfac time st n). cbv zeta. destruct (IH st1) as (A & B & D). set (st' := fold_left _ n1s st1) in *.
  assert (S1 : (dtmin st1 = snd (box_dt square coeff dtfac time n) /\ dt_par st1 = snd (box_dt square coeff dtfac time n) /\ snd (box_dt square coeff dtfac time n) < dtmin st) \/ (dtmin st1 = dtmin st /\ dt_par st1 = dt_par st /\ dtmin st <= snd (box_dt square coeff dtfac time n))).
  { unfold st1, dt_step. destruct (box_dt square coeff dtfac time n) as [ds d]. cbn [snd]. destruct (Rlt_dec d (dtmin st)); cbn [dtmin dt_par]; [left|right]; repeat split; auto; lra. }
  clearbody st1. split; [|split].
  - intros n1 [<-|Hn]; [|auto]. destruct S1 as [(? & ? & ?)|(? & ? & ?)]; lra.
  - destruct S1 as [(? & ? & ?)|(? & ? & ?)]; lra.
  - destruct S1 as [(S1 & S2 & S3)|(S1 & S2 & S3)], D as [(D1 & D2 & D3)|(D1 & D2 & n1 & D3 & D4)].
    + right. split; [lra|]. split; [congruence|]. exists n. split; [now left|]. congruence.
    + right. split; [lra|]. split; [auto|]. exists n1. split; [now right|auto].
    + left. split; [congruence|]. split; [congruence|]. intros n1 [<-|Hn]; [auto|]. rewrite <- S1. auto.
    + right. split; [lra|]. split; [auto|]. exists n1. split; [now right|auto].
Qed.
(** the number of steps for one box *)
Lemma steps time d : 0 < time -> 0 < d -> let N := Rtrunc (1 + time / d) in (1 <= N)%Z /\ time / IZR N < d /\ IZR (N - 1) <= time / d.
Proof.
  intros Ht Hd N. assert (Q : 0 < time / d) by (apply Rdiv_lt_0_compat; auto). assert (E : IZR N <= 1 + time / d < IZR N + 1) by (apply (proj1 (Rtrunc_nonneg (1 + time / d) N ltac:(lra))); reflexivity).
  assert (N1 : (1 <= N)%Z). { destruct (Z_lt_le_dec N 1) as [L|L]; auto. assert (IZR N <= 0) by (apply IZR_le; lia). lra. }
  split; [auto|]. split; [|rewrite minus_IZR; lra]. assert (P : 0 < IZR N) by (apply IZR_lt; lia).
  apply Rmult_lt_reg_r with (IZR N); auto. unfold Rdiv. rewrite Rmult_assoc, Rinv_l, Rmult_1_r by lra.
  replace time with (time / d * d) at 1 by (field; lra). rewrite (Rmult_comm d). apply Rmult_lt_compat_r; auto. lra.
Qed.
(** C95: without a required time, dt is the smallest of the steps the boxes ask for. *)
Theorem C95_dt : forall square coeff dtfac time n1s dt0 ds0, 0 < coeff -> 0 < dtfac -> n1s <> [] -> (forall n1, In n1 n1s -> 0 < n1 /\ asked square coeff dtfac n1 < 10 ^ 300) ->
  time <= 0 -> let dt := dt_par (setPars_dt square coeff dtfac time n1s dt0 ds0) in
  (forall n1, In n1 n1s -> dt <= asked square coeff dtfac n1) /\ (exists n1, In n1 n1s /\ dt = asked square coeff dtfac n1).
Proof.
  intros square coeff dtfac time n1s dt0 ds0 Hc Hf NE P Ht dt. unfold dt, setPars_dt. destruct (dt_fold square coeff dtfac time n1s {| ds_min := ds0; dt_par := dt0; dtmin := huge |}) as (A & _ & D).
  set (st' := fold_left _ _ _) in *. assert (F : forall n1, snd (box_dt square coeff dtfac time n1) = asked square coeff dtfac n1) by (intros; rewrite box_dt_val; destruct (Rlt_dec 0 time); [lra|auto]).
  destruct D as [(_ & _ & D)|(_ & E & n1 & D1 & D2)].
  - exfalso. destruct n1s as [|n n1s]; [contradiction|]. specialize (D n (or_introl eq_refl)). cbn [dtmin] in D. rewrite F in D. destruct (P n (or_introl eq_refl)) as [_ L]. unfold huge in D. lra.
  - rewrite E. split; [intros n Hn; rewrite <- F; auto|]. exists n1. split; auto. now rewrite <- F.
Qed.
Print Assumptions C95_dt.
(** C95: with a required time, an exact number N of steps reaches it; dt is smaller than what each box asks for, and N - 1 steps would not do; with finaltime = required time the
    evolution does exactly N iterations. *)
Theorem C95_required : forall square coeff dtfac time n1s dt0 ds0, 0 < coeff -> 0 < dtfac -> n1s <> [] -> (forall n1, In n1 n1s -> 0 < n1 /\ asked square coeff dtfac n1 < 10 ^ 300) ->
  0 < time -> let dt := dt_par (setPars_dt square coeff dtfac time n1s dt0 ds0) in
  exists N : Z, (1 <= N)%Z /\ IZR N * dt = time /\ (forall n1, In n1 n1s -> dt < asked square coeff dtfac n1) /\
    (exists n1, In n1 n1s /\ IZR (N - 1) * asked square coeff dtfac n1 <= time) /\
    (forall (W : Type) finaltime iterations (s : estate W), Evolve_model.dt _ s = dt -> finaltime (w _ s) = time -> limit W finaltime iterations s N).
Proof.
  intros square coeff dtfac time n1s dt0 ds0 Hc Hf NE P Ht dt. unfold dt, setPars_dt. destruct (dt_fold square coeff dtfac time n1s {| ds_min := ds0; dt_par := dt0; dtmin := huge |}) as (A & _ & D).
  set (st' := fold_left _ _ _) in *. assert (F : forall n1, snd (box_dt square coeff dtfac time n1) = time / IZR (Rtrunc (1 + time / asked square coeff dtfac n1))) by (intros; rewrite box_dt_val; destruct (Rlt_dec 0 time); [auto|lra]).
  assert (L : forall n1, In n1 n1s -> time / IZR (Rtrunc (1 + time / asked square coeff dtfac n1)) < asked square coeff dtfac n1).
  { intros n1 Hn. destruct (P n1 Hn). apply (steps time (asked square coeff dtfac n1)); auto. apply asked_pos; auto. }
  destruct D as [(_ & _ & D)|(_ & E & n1 & D1 & D2)].
  - exfalso. destruct n1s as [|n n1s]; [contradiction|]. specialize (D n (or_introl eq_refl)). cbn [dtmin] in D. rewrite F in D. destruct (P n (or_introl eq_refl)) as [_ U]. specialize (L n (or_introl eq_refl)). unfold huge in D. lra.
  - rewrite E. destruct (P n1 D1) as [Hn _]. pose proof (asked_pos square coeff dtfac n1 Hc Hf Hn) as AP. destruct (steps time (asked square coeff dtfac n1) Ht AP) as (N1 & N2 & N3). set (N := Rtrunc (1 + time / asked square coeff dtfac n1)) in *.
    assert (NP : 0 < IZR N) by (apply IZR_lt; lia). rewrite F in D2. fold N in D2. exists N. split; [auto|]. split; [rewrite D2; field; lra|]. split.
    { intros n Hin. apply Rle_lt_trans with (snd (box_dt square coeff dtfac time n)); [auto|]. rewrite F. now apply L. }
    split. { exists n1. split; auto. apply Rmult_le_reg_r with (/ asked square coeff dtfac n1); [now apply Rinv_0_lt_compat|]. rewrite Rmult_assoc, Rinv_r, Rmult_1_r by lra. exact N3. }
    intros W finaltime iterations s Hd Hfin. split; intros Hpos; rewrite Hfin in *; [|lra]. rewrite Hd. rewrite D2. replace (time / (time / IZR N)) with (IZR N) by (field; lra). symmetry. apply Rtrunc_nonneg; lra.
Qed.
Print Assumptions C95_required.
(** The parameter ParManipulator_ds_min ("smallest grid spacing") ends as that of the last box. *)
Theorem C95_ds_min : forall square coeff dtfac time n1s n dt0 ds0, ds_min (setPars_dt square coeff dtfac time (n1s ++ [n]) dt0 ds0) = coeff / (if square then n * n else n).
Proof.
  intros. unfold setPars_dt. rewrite fold_left_app. cbn [fold_left]. unfold dt_step, box_dt. destruct square; destruct (Rlt_dec _ _); reflexivity.
Qed.
Print Assumptions C95_ds_min.
Theorem C95_ds_min_refuted : exists n1s, ds_min (setPars_dt false 1 1 0 n1s 0 0) = 1 / 10 /\ In 20 n1s /\ 1 / 20 < 1 / 10.
Proof. exists ([20] ++ [10]). split; [apply (C95_ds_min false 1 1 0 [20] 10)|]. split; [now left|lra]. Qed.
Print Assumptions C95_ds_min_refuted.
(** cases *)
Example C95_case : exists s', setPars_boxes 2 (fun m => if str_eqb m (S_ "n1") then Some (S_ "24") else if str_eqb m (S_ "box1_n1") then Some (S_ "n1") else Some (S_ "7")) = Ok s' /\
  s' (S_ "box1_n1") = Some (S_ "24 n1") /\ s' (S_ "box0_n1") = Some (S_ "7").
Proof. eexists. split; [vm_compute; reflexivity|]. vm_compute. auto. Qed.
Example C95_dt_case : let dt := dt_par (setPars_dt false 10 (1/4) 1 [10; 20] 7 7) in dt = 1 / 9.
Proof.
  cbv zeta. unfold setPars_dt. cbn [fold_left].
  assert (T1 : Rtrunc (1 + 1 / (1 / 4 * (10 / 10))) = 5%Z) by (apply Rtrunc_nonneg; lra). assert (T2 : Rtrunc (1 + 1 / (1 / 4 * (10 / 20))) = 9%Z) by (apply Rtrunc_nonneg; lra).
  assert (H1 : 1 < huge). { unfold huge. apply Rlt_pow_R1; [lra|apply Nat.lt_0_succ]. }
  unfold dt_step, box_dt. cbv zeta. cbn [dtmin dt_par ds_min]. destruct (Rlt_dec 0 1); [|lra]. rewrite T1, T2. destruct (Rlt_dec (1 / 5) huge); [|lra]. cbn [dtmin dt_par ds_min]. destruct (Rlt_dec (1 / 9) (1 / 5)); [reflexivity|lra].
Qed.
