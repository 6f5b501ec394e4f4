(** Lemmas for C20: printing and reading back of the text parts. *)
From Verif Require Import Base Params_model Params_spec Params_api_spec Params_pdb_proofs Args_model Endian_model Endian_spec Endian_props Ckpt_model Ckpt_spec.

(** a word of the text: what %s reads *)
Definition tok (w : str) : Prop := w <> [] /\ Forall (fun c => isspace c = false /\ c <> NUL) w.
Definition starts_space (r : str) : Prop := match r with [] => True | c :: _ => isspace c = true end.

Lemma take_word_tok w r : Forall (fun c => isspace c = false /\ c <> NUL) w -> starts_space r -> take_word (w ++ r) = (w, r).
Proof.
  induction 1 as [|c w [A B] H IH]; intros S0; cbn [app take_word].
  - destruct r as [|c r]; cbn [take_word]; auto. cbn in S0. now rewrite S0.
  - rewrite A. now rewrite IH.
Qed.
Lemma cstr_tok w : Forall (fun c => isspace c = false /\ c <> NUL) w -> cstr w = w.
Proof. induction 1 as [|c w [A B] H IH]; cbn [cstr]; auto. destruct (ceq_spec c NUL); [contradiction|]. now rewrite IH. Qed.
Lemma skip_sp_app sp r : Forall (fun c => isspace c = true) sp -> skip_sp (sp ++ r) = skip_sp r.
Proof. induction 1 as [|c sp A H IH]; cbn [app skip_sp]; auto. now rewrite A. Qed.
Lemma fscan_tok size sp w r : Forall (fun c => isspace c = true) sp -> tok w -> starts_space r -> (Z.of_nat (List.length w) < size)%Z ->
  fscan size (sp ++ w ++ r) = Ok (Some (w, r)).
Proof.
  intros HS [NE HW] HR L. unfold fscan. rewrite skip_sp_app by auto. pose proof (take_word_tok w r HW HR) as T.
  destruct w as [|c w]; [contradiction|]. cbn [app skip_sp] in *. inversion HW as [|? ? [A B] ?]; subst. rewrite A.
  change (c :: w ++ r) with ((c :: w) ++ r) in *. cbn [app] in *. rewrite T. rewrite (cstr_tok (c :: w)) by auto.
  replace (size <=? _)%Z with false; auto. symmetry. apply Z.leb_gt. exact L.
Qed.
Lemma take_word_len f : List.length (snd (take_word f)) <= List.length f.
Proof. induction f as [|c f IH]; cbn; auto. destruct (isspace c); cbn; auto. destruct (take_word f). cbn in *. lia. Qed.
Lemma skip_sp_len f : List.length (skip_sp f) <= List.length f.
Proof. induction f as [|c f IH]; cbn; auto. destruct (isspace c); cbn; lia. Qed.
Lemma skip_sp_head f c r : skip_sp f = c :: r -> isspace c = false.
Proof. induction f as [|d f IH]; cbn; [discriminate|]. destruct (isspace d) eqn:E; auto. intros [= -> ->]. auto. Qed.
Lemma fscan_len size f w r : fscan size f = Ok (Some (w, r)) -> List.length r < List.length f.
Proof.
  unfold fscan. pose proof (skip_sp_len f). destruct (skip_sp f) as [|c g] eqn:E; [discriminate|]. pose proof (skip_sp_head _ _ _ E) as HC.
  cbn [take_word]. rewrite HC. pose proof (take_word_len g). destruct (take_word g) as [w' q]. destruct (_ <=? _)%Z; [discriminate|]. intros [= <- <-]. cbn in *. lia.
Qed.
Lemma gotonext_fuel label : forall k k' f, List.length f < k -> List.length f < k' -> gotonext k f label = gotonext k' f label.
Proof.
  induction k as [|k IH]; intros [|k'] f H H'; try lia. cbn [gotonext]. destruct (fscan 65535 f) as [[[w r]|]| |] eqn:E; cbn [rbind]; auto.
  destruct (str_eqb w label); auto. apply fscan_len in E. apply IH; lia.
Qed.
Lemma fgotonext_hit f label r : fscan 65535 f = Ok (Some (label, r)) -> fgotonext f label = Ok (Some r).
Proof. intros E. unfold fgotonext. cbn [gotonext]. rewrite E. cbn [rbind]. now rewrite str_eqb_refl. Qed.
Lemma fgotonext_skip f label w r : fscan 65535 f = Ok (Some (w, r)) -> w <> label -> fgotonext f label = fgotonext r label.
Proof.
  intros E N. unfold fgotonext at 1. cbn [gotonext]. rewrite E. cbn [rbind]. rewrite str_eqb_neq by auto. apply gotonext_fuel; [|lia]. now apply fscan_len in E.
Qed.
Lemma getpar_fuel size par : forall k k' f, List.length f < k -> List.length f < k' -> getpar k size f par = getpar k' size f par.
Proof.
  induction k as [|k IH]; intros [|k'] f H H'; try lia. cbn [getpar]. destruct (fscan size f) as [[[w r]|]| |] eqn:E; cbn [rbind]; auto.
  destruct (prefixb par w); auto. apply fscan_len in E. apply IH; lia.
Qed.
Lemma fgetparameter_skip size f par w r : fscan size f = Ok (Some (w, r)) -> prefixb par w = false -> fgetparameter size f par = fgetparameter size r par.
Proof.
  intros E N. unfold fgetparameter at 1. cbn [getpar]. rewrite E. cbn [rbind]. rewrite N. apply getpar_fuel; [|lia]. now apply fscan_len in E.
Qed.
Lemma prefixb_refl w : prefixb w w = true.
Proof. induction w as [|c w IH]; cbn [prefixb]; auto. unfold ceq at 1. now rewrite Ascii.eqb_refl, IH. Qed.
Lemma fgetparameter_hit size f par r1 r2 v r3 : fscan size f = Ok (Some (par, r1)) -> fscan size r1 = Ok (Some ([cEQ], r2)) -> fscan size r2 = Ok (Some (v, r3)) ->
  fgetparameter size f par = Ok (Some (v, r3)).
Proof.
  intros E1 E2 E3. unfold fgetparameter. cbn [getpar]. rewrite E1. cbn [rbind]. rewrite prefixb_refl, Nat.eqb_refl. unfold fscan_keep. rewrite E2. cbn [rbind].
  change (ceq cEQ cEQ) with true. cbn iota. rewrite E3. reflexivity.
Qed.
Lemma fgetparameter_end size f par : fscan size f = Ok None -> fgetparameter size f par = Ok None.
Proof. intros E. unfold fgetparameter. cbn [getpar]. now rewrite E. Qed.

(** ** numbers *)
Lemma digit_val n : n < 10 -> nat_of_ascii (digit n) = 48 + n.
Proof. intros H. unfold digit. apply nat_ascii_embedding. lia. Qed.
Lemma digit_isdigit n : n < 10 -> isdigit (digit n) = true.
Proof. intros H. unfold isdigit. rewrite digit_val by auto. apply andb_true_iff. split; apply Nat.leb_le; lia. Qed.
Lemma digit_tok c : isdigit c = true -> isspace c = false /\ c <> NUL.
Proof.
  unfold isdigit. intros H. apply andb_true_iff in H. destruct H as [A B]. apply Nat.leb_le in A. apply Nat.leb_le in B.
  split.
  - unfold isspace, ceq. repeat (apply orb_false_iff; split); apply Ascii.eqb_neq; intros ->; vm_compute in A, B; lia.
  - intros ->. vm_compute in A. lia.
Qed.
Lemma dec_digits : forall fuel n, Forall (fun c => isdigit c = true) (dec fuel n).
Proof.
  induction fuel as [|k IH]; intros n; cbn [dec]; auto. destruct (n <? 10) eqn:E.
  - apply Nat.ltb_lt in E. repeat constructor. now apply digit_isdigit.
  - apply Forall_app. split; auto. repeat constructor. apply digit_isdigit. apply Nat.mod_upper_bound. lia.
Qed.
Lemma dec_ne fuel n : dec (S fuel) n <> [].
Proof. cbn [dec]. destruct (n <? 10); [discriminate|]. intros H. apply app_eq_nil in H. destruct H. discriminate. Qed.
Lemma digits_app a b acc : Forall (fun c => isdigit c = true) a -> digits acc (a ++ b) = digits (digits acc a) b.
Proof. intros H. revert acc. induction H as [|c a A H IH]; intros acc; cbn [app digits]; auto. now rewrite A, IH. Qed.
Lemma dec_val : forall fuel n, n < fuel -> digits 0 (dec fuel n) = Z.of_nat n.
Proof.
  induction fuel as [|k IH]; intros n H; [lia|]. cbn [dec]. destruct (n <? 10) eqn:E.
  - apply Nat.ltb_lt in E. cbn [digits]. rewrite digit_isdigit, digit_val by auto. lia.
  - apply Nat.ltb_ge in E. assert (D : n / 10 < n) by (apply Nat.div_lt; lia). rewrite digits_app by apply dec_digits. rewrite IH by lia.
    assert (M : n mod 10 < 10) by (apply Nat.mod_upper_bound; lia). cbn [digits]. rewrite digit_isdigit, digit_val by auto.
    pose proof (Nat.div_mod n 10). lia.
Qed.
Lemma pr_n_digits n : Forall (fun c => isdigit c = true) (pr_n n).
Proof. apply dec_digits. Qed.
Lemma pr_d_tok z : tok (pr_d z).
Proof.
  assert (P : forall n, tok (pr_n n)).
  { intros n. split; [apply dec_ne|]. eapply Forall_impl; [|apply pr_n_digits]. intros c. apply digit_tok. }
  unfold pr_d. destruct (z <? 0)%Z; auto. split; [discriminate|]. constructor; [split; [reflexivity|discriminate]|]. apply P.
Qed.
Lemma atoi_pr_d z : atoi (pr_d z) = z.
Proof.
  unfold pr_d. destruct (z <? 0)%Z eqn:E.
  - apply Z.ltb_lt in E. unfold atoi. cbn [skip_sp]. change (isspace "-"%char) with false. cbn iota. change (ceq "-"%char "-"%char) with true. cbn iota.
    unfold pr_n. rewrite dec_val by lia. lia.
  - apply Z.ltb_ge in E. unfold atoi. pose proof (pr_n_digits (Z.to_nat z)) as DG. assert (V : digits 0 (pr_n (Z.to_nat z)) = z) by (unfold pr_n; rewrite dec_val; lia).
    destruct (pr_n (Z.to_nat z)) as [|c r]; [cbn in *; lia|]. inversion DG as [|? ? A B]; subst. cbn [skip_sp]. destruct (digit_tok c A) as [SP _]. rewrite SP.
    assert (N : c <> "-"%char /\ c <> "+"%char) by (split; intros ->; discriminate). destruct N as [N1 N2].
    destruct (ceq_spec c "-"%char); [contradiction|]. destruct (ceq_spec c "+"%char); [contradiction|]. reflexivity.
Qed.

(** ** lines *)
Lemma scan_line_nl l r : ~ In cNL l -> scan_line (l ++ cNL :: r) = (l, r, false).
Proof.
  induction l as [|c l IH]; intros H; cbn [app scan_line].
  - change (ceq cNL cNL) with true. reflexivity.
  - destruct (ceq_spec c cNL); [subst; exfalso; apply H; now left|]. rewrite IH; auto. intros I. apply H. now right.
Qed.
Lemma fscanline_nl l r : ~ In cNL l -> fscanline (l ++ cNL :: r) = Some (l, r).
Proof. intros H. unfold fscanline. rewrite scan_line_nl by auto. destruct l; auto. Qed.
Lemma before_EQ_ok a b : ~ In cEQ a -> before_EQ (a ++ cEQ :: b) = a.
Proof.
  induction a as [|c a IH]; intros H; cbn [app before_EQ].
  - change (ceq cEQ cEQ) with true. reflexivity.
  - destruct (ceq_spec c cEQ); [subst; exfalso; apply H; now left|]. rewrite IH; auto. intros I. apply H. now right.
Qed.
Lemma after_EQ_ok a b : ~ In cEQ a -> after_EQ (a ++ cEQ :: b) = b.
Proof.
  induction a as [|c a IH]; intros H; cbn [app after_EQ].
  - change (ceq cEQ cEQ) with true. reflexivity.
  - destruct (ceq_spec c cEQ); [subst; exfalso; apply H; now left|]. apply IH. intros I. apply H. now right.
Qed.
Lemma tok_no_nl w : tok w -> ~ In cNL w.
Proof. intros [_ H] I. rewrite Forall_forall in H. destruct (H _ I) as [A _]. discriminate. Qed.

(** ** the parameter section *)
Section CK.
Variable D : Type.
Variable atof : str -> D.
Variable fmt : str -> str.
Notation pdb := (pdb_state D).
Definition NR : str := S_ "checkpoint_no_read_parlist".
(** a parameter that can be written as a line and read back *)
Definition par_ok (p : str * str) : Prop :=
  tok (fst p) /\ ~ In cEQ (fst p) /\ ~ In cNL (snd p) /\ (Z.of_nat (List.length (fst p) + 3 + List.length (snd p)) < SIZE)%Z /\ stored fmt (snd p) = snd p.
Definition rd (M : pmap) (p : str * str) : pmap :=
  match M (fst p), M NR with
  | Some cur, Some nr => if str_eqb (snd p) cur then M else if getv nr (fst p) then M else pset M (fst p) (snd p)
  | _, _ => M
  end.
Lemma rd_NR M p nr : M NR = Some nr -> getv nr NR = true -> rd M p NR = Some nr.
Proof.
  intros E G. unfold rd. rewrite E. destruct (M (fst p)) as [cur|] eqn:F; auto. destruct (str_eqb (snd p) cur); auto. destruct (getv nr (fst p)) eqn:H; auto.
  unfold pset. destruct (str_eqb_spec NR (fst p)) as [Q|Q]; auto. rewrite <- Q in H. congruence.
Qed.
Lemma read_pars_ok nr rest : forall ps st s k, Rel D atof atoi st s -> fst s NR = Some nr -> getv nr NR = true -> Forall par_ok ps ->
  List.length (flat_map (fun p => fst p ++ S_ " = " ++ snd p ++ [cNL]) ps ++ S_ "$END_parameter_database" ++ cNL :: rest) < k ->
  exists st' s', read_pars D atof fmt k st (flat_map (fun p => fst p ++ S_ " = " ++ snd p ++ [cNL]) ps ++ S_ "$END_parameter_database" ++ cNL :: rest) = Ok (st', rest)
    /\ Rel D atof atoi st' s' /\ fst s' = fold_left rd ps (fst s).
Proof.
  induction ps as [|[n v] ps IH]; intros st s k R E G F L; (destruct k as [|k]; [lia|]).
  - exists st, s. split; [|auto]. cbn [flat_map app]. cbn [read_pars]. rewrite (fscanline_nl (S_ "$END_parameter_database") rest) by (vm_compute; intuition discriminate).
    reflexivity.
  - inversion F as [|? ? (T & NE & NN & SZ & ST) F']; subst. cbn [fst snd] in *.
    cbn [flat_map fst snd] in *. set (tl := flat_map (fun p => fst p ++ S_ " = " ++ snd p ++ [cNL]) ps ++ S_ "$END_parameter_database" ++ cNL :: rest) in *.
    assert (EQ : (n ++ S_ " = " ++ v ++ [cNL]) ++ flat_map (fun p => fst p ++ S_ " = " ++ snd p ++ [cNL]) ps = (n ++ S_ " = " ++ v) ++ cNL :: flat_map (fun p => fst p ++ S_ " = " ++ snd p ++ [cNL]) ps)
      by now rewrite <- !app_assoc.
    rewrite EQ in *. rewrite <- app_assoc in *. change ((cNL :: flat_map (fun p => fst p ++ S_ " = " ++ snd p ++ [cNL]) ps) ++ S_ "$END_parameter_database" ++ cNL :: rest) with (cNL :: tl) in *.
    assert (L' : List.length tl < k) by (rewrite app_length in L; cbn [List.length] in L; lia).
    cbn [read_pars]. rewrite fscanline_nl.
    2:{ rewrite in_app_iff. intros [I|I]; [now apply (tok_no_nl n T)|]. cbn in I. destruct I as [I|[I|[I|I]]]; try discriminate. contradiction. }
    destruct (n ++ S_ " = " ++ v) as [|c0 l0] eqn:EL; [destruct n; discriminate|]. rewrite <- EL.
    assert (LEN : Z.of_nat (List.length (n ++ S_ " = " ++ v)) = Z.of_nat (List.length n + 3 + List.length v)) by (rewrite !app_length; cbn [S_ list_ascii_of_string List.length]; lia).
    rewrite LEN. replace (SIZE <=? _)%Z with false by (symmetry; now apply Z.leb_gt).
    assert (ASC : n ++ S_ " = " ++ v = (n ++ [cSP]) ++ cEQ :: cSP :: v) by (now rewrite <- app_assoc).
    assert (NI : ~ In cEQ (n ++ [cSP])) by (rewrite in_app_iff; intros [I|[I|[]]]; [auto|discriminate]).
    rewrite (str_eqb_neq (n ++ S_ " = " ++ v)).
    2:{ intros Q. assert (I : In cEQ (S_ "$END_parameter_database")) by (rewrite <- Q, ASC, in_app_iff; right; now left). vm_compute in I. intuition discriminate. }
    rewrite ASC, before_EQ_ok, after_EQ_ok by auto. change (ceq cSP cSP) with true. cbn iota.
    assert (TW : take_word (n ++ [cSP]) = (n, [cSP])) by (apply take_word_tok; [apply T|reflexivity]).
    assert (NM : match skip_sp (n ++ [cSP]) with [] => n ++ [cSP] | a :: l => fst (take_word (a :: l)) end = n).
    { destruct T as [T1 T2]. destruct n as [|c n]; [contradiction|]. inversion T2 as [|? ? [A B] ?]; subst. cbn [app skip_sp] in *. rewrite A. now rewrite TW. }
    rewrite NM. change (gets_lax D st n) with (lookup D st n). pose proof R as (_ & LK & _). rewrite LK.
    cbn [fold_left]. 
    assert (RD : forall st1 s1, Rel D atof atoi st1 s1 -> fst s1 = rd (fst s) (n, v) -> exists st' s', read_pars D atof fmt k st1 tl = Ok (st', rest) /\ Rel D atof atoi st' s' /\ fst s' = fold_left rd ps (rd (fst s) (n, v))).
    { intros st1 s1 R1 E1. rewrite <- E1. apply IH; auto. rewrite E1. now apply rd_NR. }
    destruct (fst s n) as [cur|] eqn:EC.
    2:{ apply (RD st s R). unfold rd. cbn [fst snd]. now rewrite EC. }
    destruct (str_eqb v cur) eqn:EV.
    { apply (RD st s R). unfold rd. cbn [fst snd]. now rewrite EC, E, EV. }
    rewrite (gets_rel D atof atoi st s _ R). fold NR. rewrite E. cbn [rbind].
    destruct (getv nr n) eqn:GV.
    { apply (RD st s R). unfold rd. cbn [fst snd]. now rewrite EC, E, EV, GV. }
    pose proof (setparameter_rel D atof atoi fmt st s n v R) as SR. rewrite EC in SR. destruct (setparameter D atof atoi fmt st n v) as [st1| |]; try contradiction.
    cbn [rbind]. cbn [same_out] in SR. rewrite ST in SR. apply (RD st1 _ SR). unfold rd. cbn [fst snd]. now rewrite EC, E, EV, GV.
Qed.
Lemma fold_rd_get nr : forall ps M n, M NR = Some nr -> getv nr NR = true -> NoDup (map fst ps) ->
  fold_left rd ps M n = match M n with
                        | None => None
                        | Some c => match find (fun p => str_eqb (fst p) n) ps with
                                    | Some p => if getv nr n then Some c else Some (snd p)
                                    | None => Some c
                                    end
                        end.
Proof.
  induction ps as [|[m v] ps IH]; intros M n E G ND; cbn [fold_left find fst].
  - destruct (M n); auto.
  - inversion ND as [|? ? NI ND']; subst. cbn [map fst] in *. rewrite IH; auto; [|now apply rd_NR].
    unfold rd. cbn [fst snd]. rewrite E. destruct (str_eqb_spec m n) as [Q|Q].
    + subst m. assert (FN : find (fun p => str_eqb (fst p) n) ps = None).
      { destruct (find _ ps) as [p|] eqn:FF; auto. apply List.find_some in FF. destruct FF as [FI FE]. apply str_eqb_eq in FE. exfalso. apply NI. rewrite <- FE. now apply in_map. }
      rewrite FN. destruct (M n) as [c|] eqn:EC; [|now rewrite EC]. destruct (str_eqb_spec v c) as [V|V].
      * subst. rewrite EC. destruct (getv nr n); auto.
      * destruct (getv nr n) eqn:GV; [now rewrite EC|]. unfold pset. now rewrite str_eqb_refl.
    + destruct (M m) as [c|] eqn:EC; auto. destruct (str_eqb v c); auto. destruct (getv nr m); auto. unfold pset. rewrite (str_eqb_neq n m) by auto. auto.
Qed.
End CK.

(** ** the variable section *)
Definition entry := (nat * str * list Z)%type.    (* box, variable name, values *)
Definition show_entry (e : entry) : str :=
  let '(b, n, ws) := e in
  S_ "$variable = " ++ n ++ S_ " : box = " ++ pr_d (Z.of_nat b) ++ S_ " , box->nnodes = " ++ pr_d (Z.of_nat (List.length ws)) ++ cNL ::
  map asc (array_image true 8 ws) ++ [cNL].
Definition isbyte (b : byte) : Prop := (0 <= b < 256)%Z.
Lemma le_bytes_byte : forall size w, Forall isbyte (le_bytes size w).
Proof. induction size as [|k IH]; intros w; cbn [le_bytes]; constructor; auto. unfold isbyte. apply Z.mod_pos_bound. lia. Qed.
Lemma array_bytes ws : Forall isbyte (array_image true 8 ws).
Proof. unfold array_image. induction ws as [|w ws IH]; cbn [flat_map]; auto. apply Forall_app. split; auto. apply le_bytes_byte. Qed.
Lemma zof_asc b : isbyte b -> zof (asc b) = b.
Proof.
  intros H. unfold zof, asc, isbyte in *. rewrite N_ascii_embedding; [lia|]. change 256%N with (Z.to_N 256). lia.
Qed.
Lemma map_zof_asc l : Forall isbyte l -> map zof (map asc l) = l.
Proof. induction 1; cbn [map]; auto. rewrite zof_asc by auto. congruence. Qed.
Lemma array_len8 h ws : List.length (array_image h 8 ws) = 8 * List.length ws.
Proof.
  assert (L : forall s w, List.length (le_bytes s w) = s) by (induction s; intros; cbn; auto).
  unfold array_image. induction ws as [|w ws IH]; cbn [flat_map List.length]; auto. rewrite app_length, IH. unfold image. destruct h; rewrite ?rev_length, L; lia.
Qed.
Notation get := bytes_at.
Definition put (h : bool) (names : list str) (xs : list cbox) (e : entry) : list cbox :=
  let '(b, n, ws) := e in
  match nth_error xs b, ind_lax names n with
  | Some x, Some i => match nth_error (c_v x) i with
                      | Some (Some _) => upd xs b {| c_nnodes := c_nnodes x; c_v := upd (c_v x) i (Some (array_image h 8 ws)) |}
                      | _ => xs
                      end
  | _, _ => xs
  end.
Definition entry_ok (xs : list cbox) (e : entry) : Prop :=
  let '(b, n, ws) := e in
  tok n /\ (Z.of_nat (List.length n) < SIZE)%Z /\ exists x, nth_error xs b = Some x /\ c_nnodes x = List.length ws /\ (Z.of_nat (List.length (pr_d (Z.of_nat b))) < SIZE)%Z /\ (Z.of_nat (List.length (pr_d (Z.of_nat (List.length ws)))) < SIZE)%Z.
Lemma ind_lax_nth names n i : ind_lax names n = Some i -> nth_error names i = Some n.
Proof.
  revert i. induction names as [|m r IH]; intros i; cbn [ind_lax]; [discriminate|]. destruct (str_eqb_spec m n) as [->|N].
  - intros [= <-]. reflexivity.
  - destruct (ind_lax r n) as [j|]; [|discriminate]. intros [= <-]. cbn. auto.
Qed.
Lemma nth_ind_lax names n i : NoDup names -> nth_error names i = Some n -> ind_lax names n = Some i.
Proof.
  revert i. induction names as [|m r IH]; intros i ND E; [destruct i; discriminate|]. inversion ND; subst. cbn [ind_lax]. destruct i as [|i]; cbn in E.
  - injection E as ->. now rewrite str_eqb_refl.
  - rewrite str_eqb_neq; [now rewrite (IH i)|]. intros ->. apply nth_error_In in E. contradiction.
Qed.
Lemma fscan_step size sp w r f : f = sp ++ w ++ r -> Forall (fun c => isspace c = true) sp -> tok w -> starts_space r -> (Z.of_nat (List.length w) < size)%Z -> fscan size f = Ok (Some (w, r)).
Proof. intros ->. apply fscan_tok. Qed.
Lemma read_step k h c0 names xs e rest : List.length c0 = 8 -> Forall (box_ok names) xs -> entry_ok xs e ->
  read_vars (S k) h c0 names xs (cNL :: show_entry e ++ rest) = read_vars k h c0 names (put h names xs e) (cNL :: rest).
Proof.
  destruct e as [[b n] ws]. intros L0 HB (TN & LN & x & EX & NX & LB & LW). cbn [read_vars show_entry].
  set (data := map asc (array_image true 8 ws)).
  set (tl := data ++ [cNL]). set (f1 := S_ " : box = " ++ pr_d (Z.of_nat b) ++ S_ " , box->nnodes = " ++ pr_d (Z.of_nat (List.length ws)) ++ cNL :: tl ++ rest).
  assert (SH : cNL :: (S_ "$variable = " ++ n ++ S_ " : box = " ++ pr_d (Z.of_nat b) ++ S_ " , box->nnodes = " ++ pr_d (Z.of_nat (List.length ws)) ++ cNL :: tl) ++ rest = [cNL] ++ S_ "$variable" ++ S_ " = " ++ n ++ f1).
  { unfold f1. rewrite <- !app_assoc. reflexivity. }
  rewrite SH. clear SH.
  assert (SPC : Forall (fun c => isspace c = true) [cSP]) by (repeat constructor).
  assert (G1 : fgetparameter SIZE ([cNL] ++ S_ "$variable" ++ S_ " = " ++ n ++ f1) (S_ "$variable") = Ok (Some (n, f1))).
  { apply (fgetparameter_hit _ _ _ (S_ " = " ++ n ++ f1) (cSP :: n ++ f1)).
    - reflexivity.
    - reflexivity.
    - apply (fscan_tok SIZE [cSP] n f1); auto. reflexivity. }
  rewrite G1. cbn [rbind].
  set (f2 := S_ " , box->nnodes = " ++ pr_d (Z.of_nat (List.length ws)) ++ cNL :: tl ++ rest) in *.
  assert (G2 : fgetparameter SIZE f1 (S_ "box") = Ok (Some (pr_d (Z.of_nat b), f2))).
  { unfold f1. rewrite (fgetparameter_skip SIZE _ (S_ "box") (S_ ":") (S_ " box = " ++ pr_d (Z.of_nat b) ++ f2)) by reflexivity.
    apply (fgetparameter_hit _ _ _ (S_ " = " ++ pr_d (Z.of_nat b) ++ f2) (cSP :: pr_d (Z.of_nat b) ++ f2)); try reflexivity.
    apply (fscan_tok SIZE [cSP] (pr_d (Z.of_nat b)) f2); auto; [apply pr_d_tok|reflexivity]. }
  unfold fgetparameter_keep at 1. rewrite G2. cbn [rbind fst snd]. rewrite atoi_pr_d. rewrite (proj2 (Z.ltb_ge (Z.of_nat b) 0)) by lia. rewrite Nat2Z.id, EX.
  set (f3 := cNL :: tl ++ rest) in *.
  assert (G3 : fgetparameter SIZE f2 (S_ "box->nnodes") = Ok (Some (pr_d (Z.of_nat (List.length ws)), f3))).
  { unfold f2. rewrite (fgetparameter_skip SIZE _ (S_ "box->nnodes") (S_ ",") (S_ " box->nnodes = " ++ pr_d (Z.of_nat (List.length ws)) ++ f3)) by reflexivity.
    apply (fgetparameter_hit _ _ _ (S_ " = " ++ pr_d (Z.of_nat (List.length ws)) ++ f3) (cSP :: pr_d (Z.of_nat (List.length ws)) ++ f3)); try reflexivity.
    apply (fscan_tok SIZE [cSP] (pr_d (Z.of_nat (List.length ws))) f3); auto; [apply pr_d_tok|reflexivity]. }
  unfold fgetparameter_keep. rewrite G3. cbn [rbind fst snd]. rewrite atoi_pr_d, NX, Z.eqb_refl. cbn [negb].
  change f3 with ([] ++ cNL :: (tl ++ rest)). rewrite fscanline_nl by (intros []).
  assert (SK : skipn (8 * List.length ws) (tl ++ rest) = cNL :: rest).
  { unfold tl, data. rewrite <- app_assoc. rewrite skipn_app, skipn_all2 by (rewrite map_length, array_len8; lia). rewrite map_length, array_len8, Nat.sub_diag. reflexivity. }
  rewrite SK. cbn [put]. rewrite EX. destruct (ind_lax names n) as [i|] eqn:EI; auto.
  rewrite Forall_forall in HB. destruct (HB x (nth_error_In _ _ EX)) as [LV FV].
  assert (IL : i < List.length (c_v x)) by (rewrite LV; apply nth_error_Some; rewrite (ind_lax_nth _ _ _ EI); discriminate).
  destruct (nth_error (c_v x) i) as [[buf|]|] eqn:EV; auto; [|apply nth_error_Some in IL; contradiction].
  rewrite Forall_forall in FV. pose proof (FV _ (nth_error_In _ _ EV)) as LBUF. cbn beta iota in LBUF. rewrite NX in LBUF.
  assert (MZ : map zof (tl ++ rest) = array_image true 8 ws ++ map zof (cNL :: rest)).
  { unfold tl, data. rewrite <- app_assoc, map_app, map_zof_asc by apply array_bytes. reflexivity. }
  rewrite MZ. destruct (C19_read_portable h c0 8 ws buf (List.length ws) (map zof (cNL :: rest))) as [(buf' & f' & E & LB' & FB & RF) _]; auto; [lia|].
  unfold fread_double_little. rewrite E. cbn [rbind fst snd]. rewrite firstn_all2 in FB by lia. now rewrite FB, ?NX.
Qed.
Lemma put_ok h names xs e : Forall (box_ok names) xs -> entry_ok xs e -> Forall (box_ok names) (put h names xs e) /\
  (forall b, option_map c_nnodes (nth_error (put h names xs e) b) = option_map c_nnodes (nth_error xs b)).
Proof.
  destruct e as [[b n] ws]. intros HB (TN & LN & x & EX & NX & _). cbn [put]. rewrite EX. destruct (ind_lax names n) as [i|]; auto. destruct (nth_error (c_v x) i) as [[buf|]|] eqn:EV; auto.
  split.
  - apply Forall_upd; auto. rewrite Forall_forall in HB. destruct (HB x (nth_error_In _ _ EX)) as [LV FV]. split; cbn [c_v c_nnodes].
    + now rewrite upd_length.
    + apply Forall_upd; auto. rewrite array_len8, NX. reflexivity.
  - intros b'. destruct (Nat.eq_dec b b') as [<-|N].
    + rewrite nth_error_upd_eq by (apply nth_error_Some; congruence). now rewrite EX.
    + now rewrite nth_error_upd_ne.
Qed.
Lemma entry_ok_put h names xs e e' : Forall (box_ok names) xs -> entry_ok xs e -> entry_ok xs e' -> entry_ok (put h names xs e) e'.
Proof.
  intros HB H H'. destruct (put_ok h names xs e HB H) as [_ P]. destruct e' as [[b n] ws]. destruct H' as (A & B & x & EX & NX & R). split; [auto|]. split; [auto|].
  specialize (P b). rewrite EX in P. cbn in P. destruct (nth_error (put h names xs e) b) as [y|]; [|discriminate]. injection P as P. exists y. repeat split; try apply R; congruence.
Qed.
Lemma read_all h c0 names rest : List.length c0 = 8 -> rest = S_ "$END_variables" ++ [cNL; cNL] -> forall es xs k, Forall (box_ok names) xs -> Forall (entry_ok xs) es -> List.length es < k ->
  read_vars k h c0 names xs (cNL :: flat_map show_entry es ++ rest) = Ok (fold_left (put h names) es xs).
Proof.
  intros L0 ->. induction es as [|e es IH]; intros xs k HB HE L; (destruct k as [|k]; [lia|]).
  - cbn [flat_map app fold_left read_vars]. rewrite (fgetparameter_skip SIZE _ (S_ "$variable") (S_ "$END_variables") [cNL; cNL]) by reflexivity.
    rewrite fgetparameter_end by reflexivity. reflexivity.
  - inversion HE as [|? ? H1 H2]; subst. cbn [flat_map fold_left]. rewrite <- app_assoc. rewrite read_step by auto. destruct (put_ok h names xs e HB H1) as [P1 P2].
    apply IH; auto; [|cbn in L; lia]. eapply Forall_impl; [|exact H2]. intros e'. now apply entry_ok_put.
Qed.
Lemma get_put h names xs e b i n : NoDup names -> nth_error names i = Some n ->
  get (put h names xs e) b i = match get xs b i with
                               | None => None
                               | Some old => let '(b', n', ws) := e in if (b' =? b) && str_eqb n' n then Some (array_image h 8 ws) else Some old
                               end.
Proof.
  destruct e as [[b' n'] ws]. intros ND EN. unfold bytes_at. cbn [put].
  destruct (nth_error xs b') as [x'|] eqn:EX'.
  2:{ destruct (nth_error xs b) as [x|] eqn:EX; auto. destruct (Nat.eqb_spec b' b) as [->|]; [congruence|]. cbn [andb]. destruct (nth_error (c_v x) i) as [[o|]|]; auto. }
  destruct (ind_lax names n') as [j|] eqn:EI.
  2:{ destruct (nth_error xs b) as [x|] eqn:EX; auto. destruct (nth_error (c_v x) i) as [[o|]|]; auto. destruct (str_eqb_spec n' n) as [->|].
      - rewrite (nth_ind_lax names n i) in EI by auto. discriminate.
      - now rewrite andb_false_r. }
  destruct (Nat.eqb_spec b' b) as [->|NB]; cbn [andb].
  - rewrite EX'. destruct (str_eqb_spec n' n) as [->|NN].
    + rewrite (nth_ind_lax names n i) in EI by auto. injection EI as <-. destruct (nth_error (c_v x') i) as [[o|]|] eqn:EV.
      * rewrite nth_error_upd_eq by (apply nth_error_Some; congruence). cbn [c_v]. rewrite nth_error_upd_eq by (apply nth_error_Some; congruence). reflexivity.
      * now rewrite EX', EV.
      * now rewrite EX', EV.
    + assert (NJ : j <> i) by (intros ->; apply ind_lax_nth in EI; congruence). destruct (nth_error (c_v x') j) as [[o|]|] eqn:EV.
      * rewrite nth_error_upd_eq by (apply nth_error_Some; congruence). cbn [c_v]. rewrite nth_error_upd_ne by auto. destruct (nth_error (c_v x') i) as [[|]|]; auto.
      * rewrite EX'. destruct (nth_error (c_v x') i) as [[|]|]; auto.
      * rewrite EX'. destruct (nth_error (c_v x') i) as [[|]|]; auto.
  - assert (P : forall y, nth_error (upd xs b' y) b = nth_error xs b) by (intros; now apply nth_error_upd_ne).
    destruct (nth_error (c_v x') j) as [[o|]|]; rewrite ?P; destruct (nth_error xs b) as [x|]; auto; destruct (nth_error (c_v x) i) as [[|]|]; auto.
Qed.
Lemma get_fold h names b i n : NoDup names -> nth_error names i = Some n -> forall es xs,
  (forall ws ws', In (b, n, ws) es -> In (b, n, ws') es -> ws = ws') ->
  (forall ws, In (b, n, ws) es -> get (fold_left (put h names) es xs) b i = match get xs b i with None => None | Some _ => Some (array_image h 8 ws) end) /\
  ((forall ws, ~ In (b, n, ws) es) -> get (fold_left (put h names) es xs) b i = get xs b i).
Proof.
  intros ND EN. induction es as [|e es IH]; intros xs FU; [split; [intros ? []|auto]|]. cbn [fold_left].
  destruct (IH (put h names xs e)) as [I1 I2]. { intros ws ws' A B. apply FU; now right. }
  rewrite (get_put h names xs e b i n) in * by auto. destruct e as [[b' n'] ws0].
  assert (DEC : (exists ws, In (b, n, ws) es) \/ (forall ws, ~ In (b, n, ws) es)).
  { clear. induction es as [|[[b1 n1] w1] es [[ws IH]|IH]].
    - right. intros ws [].
    - left. exists ws. now right.
    - destruct (Nat.eq_dec b1 b) as [->|N]. destruct (list_eq_dec ascii_dec n1 n) as [->|N].
      + left. exists w1. now left.
      + right. intros ws [[= E]|I]; [congruence|now apply (IH ws)].
      + right. intros ws [[= E]|I]; [congruence|now apply (IH ws)]. }
  split.
  - intros ws I. destruct DEC as [[ws1 I1']|NO].
    + assert (ws1 = ws) by (apply FU; [now right|auto]). subst. rewrite (I1 ws I1'). destruct (get xs b i); auto. destruct ((b' =? b) && str_eqb n' n); auto.
    + destruct I as [[= -> -> ->]|I]; [|exfalso; now apply (NO ws)]. rewrite I2 by auto. rewrite Nat.eqb_refl, str_eqb_refl. cbn [andb]. destruct (get xs b i); auto.
  - intros NO. rewrite I2 by (intros ws I; apply (NO ws); now right). destruct (get xs b i) as [o|]; auto.
    destruct (Nat.eqb_spec b' b) as [->|]; auto. destruct (str_eqb_spec n' n) as [->|]; auto. exfalso. apply (NO ws0). now left.
Qed.
