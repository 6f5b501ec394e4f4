(** Proofs about Getv (C03), NextEntry (C04) and the parameter data base (C02). *)
From Verif Require Import Base Params_model Params_spec Params_parse_proofs.

Local Ltac inv H := inversion H; subst; clear H.

(* ------------------------------------------------------------------ *)
(** * Getv *)

Definition nosp (w : str) : Prop := Forall (fun c => c <> cSP) w.

(** An occurrence of w at the head of v followed by a blank or the end. *)
Definition endgood (v w : str) : bool :=
  prefixb w v && match nth_error v (List.length w) with None => true | Some c => ceq c cSP end.

Fixpoint firstE (v w : str) : option nat :=
  if endgood v w then Some 0
  else match v with [] => None | _ :: r => option_map S (firstE r w) end.

Lemma firstE_unfold v w : firstE v w =
  if endgood v w then Some 0
  else match v with [] => None | _ :: r => option_map S (firstE r w) end.
Proof. destruct v; reflexivity. Qed.

Lemma strstr_unfold v w : strstr v w =
  if prefixb w v then Some 0
  else match v with [] => None | _ :: r => match strstr r w with Some k => Some (S k) | None => None end end.
Proof. destruct v; reflexivity. Qed.

Lemma strstr_none_firstE v w : strstr v w = None -> firstE v w = None.
Proof.
  induction v as [|c v IH]; rewrite strstr_unfold, firstE_unfold; unfold endgood;
    destruct (prefixb w _); try discriminate; simpl; auto.
  destruct (strstr v w); try discriminate. intros _. now rewrite IH.
Qed.

Lemma strstr_some_firstE v w k : strstr v w = Some k ->
  k <= List.length v /\ firstE v w = option_map (Nat.add k) (firstE (skipn k v) w).
Proof.
  revert k; induction v as [|c v IH]; intros k; rewrite strstr_unfold; destruct (prefixb w _) eqn:E.
  - intros [= <-]. simpl. split; auto. destruct (if endgood [] w then Some 0 else None); auto.
  - discriminate.
  - intros [= <-]. split; [simpl; lia|]. destruct (firstE (skipn 0 (c::v)) w) eqn:F; simpl in *; now rewrite F.
  - destruct (strstr v w) as [k'|] eqn:F; [|discriminate]. intros [= <-].
    destruct (IH k' eq_refl) as [L Eq]. split; [simpl; lia|].
    rewrite firstE_unfold. unfold endgood. rewrite E. simpl. rewrite Eq.
    destruct (firstE (skipn k' v) w); auto.
Qed.

Lemma skipn_add {A} (l : list A) a b : skipn (a + b) l = skipn b (skipn a l).
Proof. revert l; induction a; intros l; simpl; auto. destruct l; auto. now rewrite skipn_nil. Qed.
Lemma nth_error_skipn {A} (l : list A) a b : nth_error (skipn a l) b = nth_error l (a + b).
Proof. revert l; induction a; intros [|x l]; simpl; auto. now destruct b. Qed.

Lemma strstr_prefix v w k : strstr v w = Some k -> prefixb w (skipn k v) = true.
Proof.
  revert k; induction v as [|c v IH]; intros k; rewrite strstr_unfold; destruct (prefixb w _) eqn:E;
    try discriminate; try (intros [= <-]; exact E).
  destruct (strstr v w); [|discriminate]. intros [= <-]. simpl. now apply IH.
Qed.

Lemma getv_loop_firstE fuel v w p : List.length v < p + fuel -> p <= List.length v ->
  getv_loop fuel v w p = option_map (Nat.add p) (firstE (skipn p v) w).
Proof.
  revert p; induction fuel as [|f IH]; intros p H1 H2; [lia|].
  cbn [getv_loop]. destruct (strstr (skipn p v) w) as [k|] eqn:E.
  - destruct (strstr_some_firstE _ _ _ E) as [L F]. rewrite skipn_length in L.
    rewrite F. rewrite <- skipn_add.
    pose proof (strstr_prefix _ _ _ E) as P. rewrite <- skipn_add in P.
    rewrite firstE_unfold. unfold endgood. rewrite P, nth_error_skipn. cbn [andb].
    destruct (nth_error v (p + k + List.length w)) as [c|] eqn:N.
    + destruct (ceq c cSP) eqn:C.
      * simpl. f_equal; lia.
      * assert (Lt : p + k + List.length w < List.length v).
        { apply nth_error_Some. congruence. }
        rewrite IH by lia.
        destruct (skipn (p + k) v) as [|d r] eqn:Sk.
        { assert (List.length (skipn (p + k) v) = 0) by now rewrite Sk. rewrite skipn_length in H. lia. }
        replace (skipn (S (p + k)) v) with r.
        2:{ replace (S (p + k)) with (p + k + 1) by lia. rewrite skipn_add, Sk. reflexivity. }
        destruct (firstE r w); simpl; auto. f_equal; lia.
    + simpl. f_equal; lia.
  - now rewrite (strstr_none_firstE _ _ E).
Qed.

(** getv by structural recursion: [b] tells whether the place in front of v is a boundary. *)
Fixpoint gv (b : bool) (v w : str) : bool :=
  if endgood v w then b
  else match v with [] => false | c :: r => gv (ceq c cSP) r w end.
Lemma gv_unfold b v w : gv b v w =
  if endgood v w then b else match v with [] => false | c :: r => gv (ceq c cSP) r w end.
Proof. destruct v; reflexivity. Qed.

Lemma gv_firstE v w b : gv b v w =
  match firstE v w with
  | None => false
  | Some 0 => b
  | Some (S s) => match nth_error v s with Some c => ceq c cSP | None => false end
  end.
Proof.
  revert b; induction v as [|c v IH]; intros b; rewrite gv_unfold, firstE_unfold;
    destruct (endgood _ w); auto.
  rewrite IH. destruct (firstE v w) as [[|s]|]; auto.
Qed.

Lemma getv_gv v w : getv v w = gv true v w.
Proof.
  unfold getv. rewrite getv_loop_firstE by lia. rewrite gv_firstE. simpl skipn.
  destruct (firstE v w) as [[|s]|]; auto.
Qed.

Definition tail_ok (r : str) : Prop := match r with [] => True | c :: _ => c = cSP end.

Lemma prefixb_eq w v : prefixb w v = true <-> exists r, v = w ++ r.
Proof.
  revert v; induction w as [|a w IH]; intros v; simpl.
  - split; eauto.
  - destruct v as [|b v]; simpl.
    + split; [discriminate|intros [r K]; discriminate].
    + rewrite andb_true_iff, IH. destruct (ceq_spec a b) as [<-|N]; split.
      * intros [_ [r ->]]; eauto.
      * intros [r K]; inv K; eauto.
      * intros [K _]; discriminate.
      * intros [r K]; inv K. contradiction.
Qed.

Lemma endgood_word u r w : nosp u -> nosp w -> tail_ok r -> endgood (u ++ r) w = true <-> u = w.
Proof.
  intros Hu Hw Hr. unfold endgood. rewrite andb_true_iff, prefixb_eq. split.
  - intros [[x E] N]. revert u Hu E N; induction w as [|a w IH]; intros [|b u] Hu E N; auto.
    + simpl in *. inv Hu. simpl in N. destruct (ceq_spec b cSP); [contradiction|discriminate].
    + simpl in E. destruct r as [|c r]; [discriminate|]. inv E. simpl in Hr. subst a. inv Hw. contradiction.
    + inv E. inv Hu. inv Hw. f_equal. apply IH; auto.
  - intros <-. split; eauto. rewrite nth_error_app2 by lia. rewrite Nat.sub_diag.
    destruct r; simpl; auto. simpl in Hr. subst. reflexivity.
Qed.

Lemma words_of_nosp u : nosp u -> words_of u = [u].
Proof. induction 1 as [|c u Hc _ IH]; auto. simpl. rewrite IH. now rewrite (ceq_ne _ _ Hc). Qed.
Lemma words_of_nonempty s : words_of s <> [].
Proof.
  induction s as [|x s IHs]; simpl; [discriminate|]. destruct (words_of s); [contradiction|].
  destruct (ceq x cSP); discriminate.
Qed.
Lemma words_of_cons u r : nosp u -> words_of (u ++ cSP :: r) = u :: words_of r.
Proof.
  induction 1 as [|c u Hc _ IH]; simpl.
  - pose proof (words_of_nonempty r). destruct (words_of r); [contradiction|]. reflexivity.
  - rewrite IH. now rewrite (ceq_ne _ _ Hc).
Qed.

Lemma split_first v : exists u r, v = u ++ r /\ nosp u /\ tail_ok r.
Proof.
  induction v as [|c v (u & r & -> & Hu & Hr)].
  - exists [], []. repeat split; auto. constructor.
  - destruct (ceq_spec c cSP) as [->|N].
    + exists [], (cSP :: u ++ r). repeat split; auto. constructor.
    + exists (c :: u), r. repeat split; auto. now constructor.
Qed.

Definition endswith (w u : str) : Prop := exists x, u = x ++ w.

Lemma endswith_dec w u : {endswith w u} + {~ endswith w u}.
Proof.
  induction u as [|c u IH].
  - destruct w as [|a w].
    + left; exists []; auto.
    + right; intros [[|] K]; discriminate.
  - destruct (list_eq_dec ascii_dec w (c :: u)) as [->|N].
    + left; exists []; auto.
    + destruct IH as [Y|Y].
      * left. destruct Y as [x ->]. exists (c :: x); auto.
      * right. intros [[|d x] K]; simpl in K; [congruence|]. inv K. apply Y. exists x; auto.
Qed.

(** One word u, then r. *)
Lemma gv_word u r w b : nosp u -> nosp w -> tail_ok r ->
  gv b (u ++ r) w =
  if endswith_dec w u then (if list_eq_dec ascii_dec u w then b else false)
  else match r with [] => false | _ :: r' => gv true r' w end.
Proof.
  intros Hu Hw Hr. revert b. induction u as [|c u IH]; intros b.
  - simpl app. rewrite gv_unfold.
    destruct (endgood r w) eqn:E.
    + apply (endgood_word [] r w) in E; auto. subst w.
      destruct (endswith_dec [] []) as [_|N]; [destruct (list_eq_dec ascii_dec [] []); auto; contradiction|].
      destruct N. exists []; auto.
    + destruct (endswith_dec w []) as [[x K]|N].
      * symmetry in K. apply app_eq_nil in K as [_ ->].
        assert (endgood r [] = true) by (apply (endgood_word [] r []); auto; constructor). congruence.
      * destruct r as [|d r]; auto. simpl in Hr. subst d. reflexivity.
  - pose proof (Forall_inv Hu) as Hc. simpl in Hc. pose proof (Forall_inv_tail Hu) as Hu'.
    rewrite gv_unfold.
    destruct (endgood ((c :: u) ++ r) w) eqn:E.
    + apply endgood_word in E; auto. subst w.
      destruct (endswith_dec (c :: u) (c :: u)) as [_|N]; [|destruct N; exists []; auto].
      destruct (list_eq_dec ascii_dec (c :: u) (c :: u)); [auto|contradiction].
    + simpl app. cbv iota. rewrite (IH Hu' (ceq c cSP)), (ceq_ne _ _ Hc).
      destruct (list_eq_dec ascii_dec (c :: u) w) as [<-|N].
      { assert (endgood ((c :: u) ++ r) (c :: u) = true) by (apply endgood_word; auto). congruence. }
      destruct (endswith_dec w u) as [Y|Y]; destruct (endswith_dec w (c :: u)) as [Y'|Y']; auto.
      * destruct (list_eq_dec ascii_dec u w); auto.
      * destruct Y' as []. destruct Y as [x ->]. exists (c :: x); auto.
      * destruct Y' as [[|d x] K]; simpl in K; [congruence|]. inv K. destruct Y. exists x; auto.
Qed.

(** Exact characterisation: the first word that ends in w is w itself. *)
Lemma getv_exact v w : nosp w ->
  getv v w = true <->
  exists pre post, words_of v = pre ++ w :: post /\ Forall (fun u => ~ endswith w u) pre.
Proof.
  intros Hw. rewrite getv_gv.
  remember (List.length v) as n eqn:Hn.
  assert (Hle : List.length v <= n) by lia. clear Hn.
  revert v Hle; induction n as [n IH] using lt_wf_ind; intros v Hle.
  destruct (split_first v) as (u & r & -> & Hu & Hr).
  rewrite gv_word by auto.
  assert (W : words_of (u ++ r) = u :: match r with [] => [] | _ :: r' => words_of r' end).
  { destruct r as [|c r].
    - rewrite app_nil_r. now apply words_of_nosp.
    - simpl in Hr. subst c. now apply words_of_cons. }
  rewrite W.
  destruct (endswith_dec w u) as [Y|Y].
  - destruct (list_eq_dec ascii_dec u w) as [->|N].
    + split; auto. intros _. exists [], (match r with [] => [] | _ :: r' => words_of r' end). auto.
    + split; [discriminate|]. intros (pre & post & E & F). destruct pre as [|p pre]; simpl in E; inv E.
      * contradiction.
      * inv F. contradiction.
  - destruct r as [|c r].
    + split; [discriminate|]. intros (pre & post & E & F). destruct pre as [|p pre]; simpl in E; inv E.
      * destruct Y. exists []; auto.
      * destruct pre; discriminate.
    + rewrite (IH (List.length r)) by (rewrite app_length in Hle; simpl in Hle; lia).
      split.
      * intros (pre & post & E & F). exists (u :: pre), post. rewrite E. split; auto.
      * intros (pre & post & E & F). destruct pre as [|p pre]; simpl in E; inv E.
        { destruct Y. exists []; auto. }
        inv F. eauto.
Qed.

Lemma getv_sound v w : nosp w -> getv v w = true -> In w (words_of v).
Proof.
  intros Hw H. apply getv_exact in H as (pre & post & -> & _); auto.
  apply in_or_app; right; left; auto.
Qed.
Lemma getv_complete v w : nosp w -> In w (words_of v) ->
  (forall u, In u (words_of v) -> endswith w u -> u = w) -> getv v w = true.
Proof.
  intros Hw HI HU. apply getv_exact; auto.
  remember (words_of v) as l eqn:E. clear E v.
  induction l as [|u l IH]; [destruct HI|].
  destruct (list_eq_dec ascii_dec u w) as [->|N].
  - exists [], l; auto.
  - destruct HI as [->|HI]; [contradiction|].
    destruct IH as (pre & post & -> & F); auto.
    + intros x Hx. apply HU. now right.
    + exists (u :: pre), post. split; auto. constructor; auto.
      intros K. apply N. apply HU; auto. now left.
Qed.

(* ------------------------------------------------------------------ *)
(** * NextEntry *)

Definition ne_word (w : str) : Prop := Forall (fun c => c <> cSP /\ c <> NUL) w.

Lemma ne_scan_spec w r i : ne_word w -> tail_ok r -> ne_scan (w ++ r) i = i + List.length w.
Proof.
  intros H Hr. revert i; induction H as [|c w [Hc _] _ IH]; intros i; simpl.
  - destruct r; simpl; try lia. simpl in Hr. subst. simpl. lia.
  - rewrite (ceq_ne _ _ Hc), IH. lia.
Qed.

Lemma skipn_upd {A} (l : list A) i j x : i <= j -> skipn i (upd l j x) = upd (skipn i l) (j - i) x.
Proof.
  revert i j; induction l as [|y l IH]; intros [|i] [|j] H; simpl; auto; try lia.
  apply IH; lia.
Qed.
Lemma upd_app_len {A} (w : list A) c r x : upd (w ++ c :: r) (List.length w) x = w ++ x :: r.
Proof. induction w; simpl; auto. now rewrite IHw. Qed.
Lemma upd_beyond {A} (w : list A) i x : List.length w <= i -> upd w i x = w.
Proof. revert i; induction w; intros [|i] H; simpl in *; auto; try lia. rewrite IHw; auto; lia. Qed.
Lemma cstr_word w r : ne_word w -> cstr (w ++ NUL :: r) = w.
Proof. induction 1 as [|c w [_ Hc] _ IH]; simpl; auto. rewrite (ceq_ne _ _ Hc). now rewrite IH. Qed.
Lemma cstr_word_end w : ne_word w -> cstr w = w.
Proof. induction 1 as [|c w [_ Hc] _ IH]; simpl; auto. rewrite (ceq_ne _ _ Hc). now rewrite IH. Qed.

(** Middle of an enumeration. *)


Lemma skipn_upd_beyond {A} (l : list A) i j x : j < i -> skipn i (upd l j x) = skipn i l.
Proof. revert i j; induction l as [|y l IH]; intros [|i] [|j] H; simpl; auto; try lia. apply IH; lia. Qed.

Lemma next_entry_mid st (txt w r : str) : txt <> [] ->
  ne_i st <> 0 -> ne_i st <> ne_l st -> ne_l st = List.length (ne_copy st) ->
  skipn (S (ne_i st)) (ne_copy st) = w ++ r -> S (ne_i st) <= ne_l st -> ne_word w -> tail_ok r ->
  exists st', next_entry st (Some txt) = (st', Some w) /\ ne_i st' <> 0 /\
    ne_l st' = List.length (ne_copy st') /\
    match r with
    | [] => ne_i st' = ne_l st'
    | _ :: r' => ne_i st' <> ne_l st' /\ S (ne_i st') <= ne_l st' /\ skipn (S (ne_i st')) (ne_copy st') = r'
    end.
Proof.
  intros Ht H0 H1 H2 H3 Hle Hw Hr. unfold next_entry. destruct txt as [|t0 txt]; [contradiction|].
  apply Nat.eqb_neq in H0 as E0. apply Nat.eqb_neq in H1 as E1.
  rewrite E0, E1. cbn [negb andb]. rewrite H3, ne_scan_spec by auto.
  assert (L : List.length (ne_copy st) - S (ne_i st) = List.length w + List.length r).
  { rewrite <- skipn_length, H3, app_length. auto. }
  eexists. split; [f_equal|].
  - rewrite skipn_upd by lia. rewrite H3. replace (S (ne_i st) + List.length w - S (ne_i st)) with (List.length w) by lia.
    destruct r as [|c r].
    + rewrite app_nil_r, upd_beyond by lia. now rewrite cstr_word_end.
    + rewrite upd_app_len, cstr_word; auto.
  - cbn [ne_i ne_l ne_copy]. rewrite upd_length. split; [lia|]. split; [auto|].
    destruct r as [|c r]; simpl in L.
    + lia.
    + split; [lia|split; [lia|]].
      rewrite skipn_upd_beyond by lia.
      replace (S (S (ne_i st) + List.length w)) with (S (ne_i st) + (List.length w + 1)) by lia.
      rewrite skipn_add, H3. rewrite skipn_add, skipn_app, skipn_all, Nat.sub_diag. reflexivity.
Qed.

Lemma next_entry_start st (w r : str) : ne_i st = 0 -> w <> [] -> ne_word w -> tail_ok r ->
  exists st', next_entry st (Some (w ++ r)) = (st', Some w) /\ ne_i st' <> 0 /\
    ne_l st' = List.length (ne_copy st') /\
    match r with
    | [] => ne_i st' = ne_l st'
    | _ :: r' => ne_i st' <> ne_l st' /\ S (ne_i st') <= ne_l st' /\ skipn (S (ne_i st')) (ne_copy st') = r'
    end.
Proof.
  intros H0 Nw Hw Hr. unfold next_entry.
  destruct (w ++ r) as [|t0 txt] eqn:E; [destruct w; [contradiction|discriminate]|].
  rewrite H0. cbn [Nat.eqb negb andb]. rewrite <- E. rewrite !skipn_O. rewrite ! ne_scan_spec by auto.
  assert (Lw : List.length w <> 0) by (destruct w; [contradiction|discriminate]).
  eexists. split; [f_equal|].
  - destruct r as [|c r].
    + rewrite app_nil_r, upd_beyond by (simpl; lia). now rewrite cstr_word_end.
    + simpl Nat.add. rewrite upd_app_len, cstr_word; auto.
  - cbn [ne_i ne_l ne_copy]. rewrite upd_length, app_length. split; [simpl; lia|]. split; [auto|].
    destruct r as [|c r]; simpl.
    + lia.
    + split; [lia|split; [lia|]].
      change (match upd (w ++ c :: r) (List.length w) NUL with [] => [] | _ :: l => skipn (List.length w) l end)
        with (skipn (S (List.length w)) (upd (w ++ c :: r) (List.length w) NUL)).
      rewrite skipn_upd_beyond by lia.
      replace (S (List.length w)) with (List.length w + 1) by lia.
      rewrite skipn_add, skipn_app, skipn_all, Nat.sub_diag. reflexivity.
Qed.

Lemma next_entry_end st (txt : str) : ne_i st <> 0 -> ne_i st = ne_l st ->
  exists st', next_entry st (Some txt) = (st', None) /\ ne_i st' = 0.
Proof.
  intros H0 H1. unfold next_entry. destruct txt; [eauto|].
  apply Nat.eqb_neq in H0 as E0. rewrite E0, <- H1, Nat.eqb_refl. simpl. eauto.
Qed.

Lemma next_entries_S k st lst : next_entries (S k) st lst =
  let '(st1, e) := next_entry st lst in
  let '(st2, es) := next_entries k st1 lst in (st2, e :: es).
Proof. reflexivity. Qed.

Lemma next_entries_mid (ws : list str) st (txt : str) : txt <> [] -> Forall ne_word ws ->
  ne_i st <> 0 -> ne_l st = List.length (ne_copy st) ->
  (match ws with
   | [] => ne_i st = ne_l st
   | _ => ne_i st <> ne_l st /\ S (ne_i st) <= ne_l st /\ skipn (S (ne_i st)) (ne_copy st) = join_sp ws
   end) ->
  exists st', next_entries (S (List.length ws)) st (Some txt) = (st', map Some ws ++ [None]) /\ ne_i st' = 0.
Proof.
  intros Ht H. revert st; induction H as [|w ws Hw Hws IH]; intros st H0 Hl H1.
  - destruct (next_entry_end st txt H0 H1) as (st' & E' & E). exists st'. rewrite next_entries_S, E'. auto.
  - destruct H1 as (H1 & H2 & H3).
    destruct (next_entry_mid st txt w (match ws with [] => [] | _ => cSP :: join_sp ws end))
      as (st' & E & E0 & El & Er); auto.
    { rewrite H3. destruct ws; simpl; auto. now rewrite app_nil_r. }
    { destruct ws; simpl; auto. }
    destruct (IH st') as (st2 & E2 & F2); auto.
    { destruct ws; auto. }
    exists st2. split; auto.
    change (next_entries (S (List.length (w :: ws))) st (Some txt)) with
      (let '(st1, e) := next_entry st (Some txt) in
       let '(st2, es) := next_entries (S (List.length ws)) st1 (Some txt) in (st2, e :: es)).
    rewrite E, E2. reflexivity.
Qed.

Lemma next_entries_all (w : str) (ws : list str) st : Forall ne_word (w :: ws) -> w <> [] -> ne_i st = 0 ->
  exists st', next_entries (S (S (List.length ws))) st (Some (join_sp (w :: ws)))
    = (st', map Some (w :: ws) ++ [None]) /\ ne_i st' = 0.
Proof.
  intros H Nw H0. inv H.
  set (r := match ws with [] => [] | _ => cSP :: join_sp ws end).
  assert (E : join_sp (w :: ws) = w ++ r).
  { unfold r; destruct ws; simpl; auto. now rewrite app_nil_r. }
  destruct (next_entry_start st w r H0 Nw H3) as (st' & E1 & E2 & E3 & E4).
  { unfold r; destruct ws; simpl; auto. }
  destruct (next_entries_mid ws st' (w ++ r)) as (st2 & F1 & F2); auto.
  { destruct w; [contradiction|discriminate]. }
  { unfold r in E4. destruct ws; auto. }
  exists st2. split; auto. rewrite E.
  rewrite next_entries_S. setoid_rewrite E1. cbv beta iota. setoid_rewrite F1. reflexivity.
Qed.

(** A list starting with a blank is never enumerated: every call returns "". *)
Lemma next_entries_blank_forever k (txt : str) st : ne_i st = 0 ->
  snd (next_entries k st (Some (cSP :: txt))) = repeat (Some []) k.
Proof.
  revert st; induction k as [|k IH]; intros st H; auto.
  rewrite next_entries_S. destruct (next_entry st (Some (cSP :: txt))) as [st1 e] eqn:E.
  unfold next_entry in E. rewrite H in E. simpl in E. inv E.
  specialize (IH {| ne_copy := NUL :: txt; ne_i := 0; ne_l := S (List.length txt) |} eq_refl).
  destruct (next_entries k _ _) as [st2 es]. simpl in *. now rewrite IH.
Qed.
