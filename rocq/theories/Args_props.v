(** C49, C53: argument files and command line options. *)
From Coq Require Import Permutation.
From Verif Require Import Base Params_model Params_spec Params_api_spec Params_parse_proofs Params_db_proofs Params_pdb_proofs Args_model Args_spec.

(** ** construct_argv *)
Lemma pieces_ne s : pieces s <> [].
Proof. induction s as [|c s IH]; cbn [pieces]; [discriminate|]. destruct (pieces s); [contradiction|]. destruct (ceq c cSP); discriminate. Qed.
Lemma strtoks_ok s : forall tok, strtoks tok s = match pieces s with w :: ws => filter (fun w => match w with [] => false | _ => true end) ((rev tok ++ w) :: ws) | [] => [] end.
Proof.
  induction s as [|c s IH]; intros tok; cbn [strtoks pieces].
  - rewrite app_nil_r. destruct tok as [|a tok]; [reflexivity|]. cbn [filter]. destruct (rev (a :: tok)) eqn:E; [|reflexivity].
    apply (f_equal (@List.length _)) in E. rewrite rev_length in E. discriminate.
  - pose proof (pieces_ne s) as N. destruct (ceq c cSP).
    + destruct tok as [|a tok]; rewrite IH; destruct (pieces s) as [|w ws]; try contradiction; cbn [rev app]; [reflexivity|].
      rewrite app_nil_r. cbn [filter]. destruct (rev tok ++ [a]) eqn:E; [|reflexivity]. now destruct (rev tok).
    + rewrite IH. destruct (pieces s) as [|w ws]; [contradiction|]. cbn [rev]. now rewrite <- app_assoc.
Qed.
Lemma construct_argv_words s : construct_argv s = words s.
Proof. unfold construct_argv, words. rewrite strtoks_ok. pose proof (pieces_ne s). destruct (pieces s); [contradiction|reflexivity]. Qed.

(** ** reading lines *)
Lemma lines_ne f : lines f <> [].
Proof. induction f as [|c f IH]; cbn [lines]; [discriminate|]. destruct (lines f); [contradiction|]. destruct (ceq c cNL); discriminate. Qed.
Lemma scan_line_ok f : forall l r e, scan_line f = (l, r, e) ->
  lines f = l :: (if e then [] else lines r) /\ List.length r <= List.length f /\ (e = false -> List.length r < List.length f).
Proof.
  induction f as [|c f IH]; intros l r e; cbn [scan_line lines].
  - intros [= <- <- <-]. cbn. repeat split; auto; discriminate.
  - pose proof (lines_ne f). destruct (ceq c cNL).
    + intros [= <- <- <-]. destruct (lines f); [contradiction|]. cbn. repeat split; lia.
    + destruct (scan_line f) as [[l0 r0] e0]. intros [= <- <- <-]. destruct (IH _ _ _ eq_refl) as (E & L & LL). rewrite E. cbn [List.length].
      repeat split; [lia|]. intros Q. specialize (LL Q). lia.
Qed.
Lemma scan_eof f : forall l r, scan_line f = (l, r, true) -> r = [].
Proof. induction f as [|c f IH]; intros l r; cbn [scan_line]; [now intros [= <- <-]|]. destruct (ceq c cNL); [discriminate|]. destruct (scan_line f) as [[l0 r0] e0]. intros [= <- <- ->]. eapply IH. reflexivity. Qed.
Definition short (l : str) : Prop := List.length l < BUFLEN.
Lemma next_line_ok : forall fuel f, List.length f < fuel -> Forall short (lines f) ->
  (commands f = [] /\ next_line fuel f = Ok None) \/
  (exists l r, next_line fuel f = Ok (Some (l, r)) /\ commands f = l :: commands r /\ Forall short (lines r)).
Proof.
  induction fuel as [|k IH]; intros f HF HS; [lia|]. cbn [next_line]. unfold fscanline. destruct (scan_line f) as [[l r] e] eqn:E.
  destruct (scan_line_ok _ _ _ _ E) as (EL & L & LL). unfold commands. rewrite EL in *. inversion HS as [|? ? H1 H2]; subst. unfold short in H1.
  assert (R : List.length r < k \/ (e = true /\ r = [])). { destruct e; [right; split; auto; eapply scan_eof; eauto|left; specialize (LL eq_refl); lia]. }
  assert (LR : filter is_command (if e then [] else lines r) = commands r). { destruct e; auto. assert (r = []) by (eapply scan_eof; eauto). subst r. reflexivity. }
  assert (SR : Forall short (lines r)). { destruct e; auto. assert (r = []) by (eapply scan_eof; eauto). subst r. constructor; auto. unfold short. cbn. lia. }
  destruct l as [|c l].
  - cbn [filter is_command]. rewrite LR. destruct e; cbn [negb].
    + left. assert (r = []) by (eapply scan_eof; eauto). subst r. auto.
    + cbn [List.length Nat.leb]. destruct (BUFLEN <=? 0) eqn:B; [apply Nat.leb_le in B; assert (0 < BUFLEN) by (apply Nat.ltb_lt; vm_compute; reflexivity); lia|]. apply IH; auto. specialize (LL eq_refl). lia.
  - replace (BUFLEN <=? List.length (c :: l)) with false by (symmetry; apply Nat.leb_gt; lia).
    cbn [filter is_command]. destruct (ceq c cHASH); cbn [negb].
    + rewrite LR. destruct R as [R|[-> ->]].
      * apply IH; auto.
      * destruct k; [cbn [List.length] in *; assert (List.length (lines f) = 1) by (rewrite EL; reflexivity); exfalso; destruct f; [discriminate E|cbn in HF; lia]|]. left. auto.
    + right. exists (c :: l), r. rewrite LR. auto.
Qed.

(** ** C49 *)
Definition runs_of (f : str) (a0 a2 : str) (rank size : nat) : res (list (list str)) :=
  main_loop (S (S (List.length (commands f)))) (Some f) [a0; S_ "--argsfile"; a2] rank size args_init 0.
Lemma share_hit rank size n : rank < size -> ((n <? rank) = false /\ ((n - rank) mod size =? 0) = true) <-> (n mod size =? rank) = true.
Proof.
  intros Hr. rewrite Nat.ltb_ge, !Nat.eqb_eq. split.
  - intros [L M]. apply Nat.mod_divide in M; [|lia]. destruct M as [q E]. replace n with (rank + q * size) by lia. rewrite Nat.mod_add by lia. now apply Nat.mod_small.
  - intros M. pose proof (Nat.div_mod n size ltac:(lia)). split; [nia|]. apply Nat.mod_divide; [lia|]. exists (n / size). nia.
Qed.
Lemma main_loop_ok f0 a0 a2 rank size : rank < size -> forall fuel f st restarts,
  (fp st = Some f \/ (fp st = None /\ f = f0)) ->
  List.length (commands f) < fuel -> Forall short (lines f) -> Forall (fun l => List.length (a0 ++ cSP :: l) < BUFLEN) (commands f) ->
  (rank = 0 -> restarts = 0 -> arglinenum st = 0 /\ commands f <> []) ->
  main_loop fuel (Some f0) [a0; S_ "--argsfile"; a2] rank size st restarts
  = Ok (map (fun l => words (a0 ++ cSP :: l)) (share rank size (arglinenum st) (commands f))).
Proof.
  intros Hr. induction fuel as [|k IH]; intros f st restarts Hf HF HS HB H0; [lia|]. cbn [main_loop get_next_argument_line].
  rewrite str_eqb_refl.
  assert (EF : match fp st with Some g => Some g | None => Some f0 end = Some f) by (destruct Hf as [-> | [-> ->]]; reflexivity). rewrite EF.
  destruct (next_line_ok (S (List.length f)) f ltac:(lia) HS) as [[EC EN]|(l & r & EN & EC & SR)]; rewrite EN; cbn [rbind]; rewrite EC in *.
  - cbn [share map negb]. rewrite !andb_true_r. destruct (0 <? rank) eqn:R0; [reflexivity|]. apply Nat.ltb_ge in R0. assert (rank = 0) by lia. subst rank.
    cbn [Nat.ltb Nat.leb]. destruct (negb ((arglinenum st - 0) mod size =? 0)); [reflexivity|].
    destruct restarts as [|restarts]; [|reflexivity]. destruct H0 as [_ H0]; auto. contradiction.
  - inversion HB as [|? ? B1 B2]; subst. replace (BUFLEN <=? List.length (a0 ++ cSP :: l)) with false by (symmetry; now apply Nat.leb_gt).
    cbn [rbind negb]. rewrite !andb_false_r. cbn [share]. rewrite construct_argv_words. cbn [List.length] in HF.
    set (st' := {| fp := Some r; arglinenum := S (arglinenum st) |}).
    destruct (arglinenum st mod size =? rank) eqn:M.
    + apply (share_hit rank size _ Hr) in M. destruct M as [M1 M2]. rewrite M1, M2. cbn [negb].
      assert (NM : main_loop k (Some f0) [a0; S_ "--argsfile"; a2] rank size st' (S restarts) = Ok (map (fun l => words (a0 ++ cSP :: l)) (share rank size (S (arglinenum st)) (commands r)))) by (apply (IH r st'); auto; lia).
      rewrite NM. reflexivity.
    + assert (NM : main_loop k (Some f0) [a0; S_ "--argsfile"; a2] rank size st' restarts = Ok (map (fun l => words (a0 ++ cSP :: l)) (share rank size (S (arglinenum st)) (commands r)))).
      { apply (IH r st'); auto; [lia|]. intros -> ->. destruct H0 as [Z _]; auto. rewrite Z, Nat.mod_0_l in M by lia. discriminate. }
      destruct (arglinenum st <? rank) eqn:A; [exact NM|]. destruct ((arglinenum st - rank) mod size =? 0) eqn:B; cbn [negb]; [|exact NM].
      exfalso. assert (arglinenum st mod size =? rank = true) by (apply (share_hit rank size _ Hr); auto). congruence.
Qed.
(** Process number rank of size processes runs exactly the commands number rank, rank+size, ... of the file, in file order,
    each with the words of the line behind the program name. *)
Theorem C49_each_process f a0 a2 rank size : rank < size -> Forall short (lines f) ->
  Forall (fun l => List.length (a0 ++ cSP :: l) < BUFLEN) (commands f) -> (rank = 0 -> commands f <> []) ->
  runs_of f a0 a2 rank size = Ok (map (fun l => words (a0 ++ cSP :: l)) (share rank size 0 (commands f))).
Proof. intros H1 H2 H3 H4. unfold runs_of. apply main_loop_ok with (f := f); auto. Qed.
Print Assumptions C49_each_process.
Lemma share_insert {X} c (g : nat -> list X) x n : forall lo, lo <= x < lo + n ->
  Permutation (flat_map (fun r => if x =? r then c :: g r else g r) (seq lo n)) (c :: flat_map g (seq lo n)).
Proof.
  induction n as [|n IH]; intros lo H; [lia|]. cbn [seq flat_map]. destruct (Nat.eqb_spec x lo) as [->|N].
  - cbn [app]. constructor. apply Permutation_app_head.
    assert (E : forall l, (forall r, In r l -> lo < r) -> flat_map (fun r => if lo =? r then c :: g r else g r) l = flat_map g l).
    { induction l as [|r l IHl]; intros HL; auto. cbn [flat_map]. rewrite IHl by (intros; apply HL; now right).
      destruct (Nat.eqb_spec lo r); auto. specialize (HL r (or_introl eq_refl)). lia. }
    rewrite E; auto. intros r Hr. apply in_seq in Hr. lia.
  - rewrite (IH (S lo)) by lia. symmetry. apply Permutation_middle.
Qed.
Lemma share_perm size cs : 0 < size -> forall i, Permutation (flat_map (fun r => share r size i cs) (seq 0 size)) cs.
Proof.
  intros Hs. induction cs as [|c cs IH]; intros i; cbn [share].
  - assert (E : forall l, flat_map (fun _ : nat => @nil str) l = []) by (induction l; auto). now rewrite E.
  - rewrite (share_insert c (fun r => share r size (S i) cs) (i mod size) size 0) by (pose proof (Nat.mod_upper_bound i size); lia). constructor. apply IH.
Qed.
(** All processes together run every command of the file exactly once. *)
Theorem C49_every_line_once f a0 a2 size : 0 < size -> commands f <> [] -> Forall short (lines f) ->
  Forall (fun l => List.length (a0 ++ cSP :: l) < BUFLEN) (commands f) ->
  exists runs : nat -> list (list str), (forall rank, rank < size -> runs_of f a0 a2 rank size = Ok (runs rank)) /\
    Permutation (flat_map runs (seq 0 size)) (map (fun l => words (a0 ++ cSP :: l)) (commands f)).
Proof.
  intros Hs NE HS HB. exists (fun rank => map (fun l => words (a0 ++ cSP :: l)) (share rank size 0 (commands f))). split.
  - intros rank Hr. apply C49_each_process; auto.
  - assert (E : forall l, flat_map (fun rank => map (fun l => words (a0 ++ cSP :: l)) (share rank size 0 (commands f))) l = map (fun l => words (a0 ++ cSP :: l)) (flat_map (fun r => share r size 0 (commands f)) l)).
    { induction l as [|r l IH]; auto. cbn [flat_map]. now rewrite map_app, IH. }
    rewrite E. apply Permutation_map. now apply share_perm.
Qed.
Print Assumptions C49_every_line_once.
(** Without --argsfile only process 0 does a run, with its own arguments. *)
Theorem C49_single_run argv content rank size fuel : 0 < size -> rank < size ->
  (List.length argv <> 3 \/ nth 1 argv [] <> S_ "--argsfile") ->
  main_loop (S fuel) content argv rank size args_init 0 = Ok (if rank =? 0 then [argv] else []).
Proof.
  intros Hs Hr HA. cbn [main_loop].
  assert (E : get_next_argument_line content argv args_init = Ok (args_init, false, argv, 0)).
  { unfold get_next_argument_line. destruct argv as [|x [|y [|z [|? ?]]]]; try reflexivity. destruct (str_eqb_spec y (S_ "--argsfile")) as [->|N]; [|reflexivity].
    exfalso. destruct HA as [HA|HA]; apply HA; reflexivity. }
  rewrite E. cbn [rbind negb]. rewrite !andb_true_r. destruct (Nat.eqb_spec rank 0) as [->|N].
  - cbn [Nat.ltb Nat.leb Nat.sub]. rewrite Nat.mod_0_l by lia. reflexivity.
  - destruct (Nat.ltb_spec 0 rank); [reflexivity|lia].
Qed.
Print Assumptions C49_single_run.
(** A file without commands makes process 0 run with "--argsfile" as the parameter file. *)
Theorem C49_empty_file_refuted : exists f a0 a2, commands f = [] /\ runs_of f a0 a2 0 1 = Ok [[a0; S_ "--argsfile"; a2]].
Proof. exists (S_ "#"), (S_ "sgrid"), (S_ "a.txt"). split; vm_compute; reflexivity. Qed.
Print Assumptions C49_empty_file_refuted.
Definition ex_file : str := S_ "a.par" ++ [cNL] ++ S_ "# c" ++ [cNL; cNL] ++ S_ "b.par  --x" ++ [cNL] ++ S_ "c.par".
Example C49_example : runs_of ex_file (S_ "sgrid") (S_ "f") 0 2 = Ok [[S_ "sgrid"; S_ "a.par"]; [S_ "sgrid"; S_ "c.par"]]
  /\ runs_of ex_file (S_ "sgrid") (S_ "f") 1 2 = Ok [[S_ "sgrid"; S_ "b.par"; S_ "--x"]] /\ commands ex_file <> [] /\ Forall short (lines ex_file).
Proof. split; [vm_compute; reflexivity|]. split; [vm_compute; reflexivity|]. split; [vm_compute; discriminate|]. apply Forall_forall. intros l H. apply Nat.ltb_lt. revert l H. apply forallb_forall. vm_compute. reflexivity. Qed.

(** ** C53: command line options *)
Lemma contains_prefix w s : ~ contains w s -> prefixb w s = false.
Proof. intros H. destruct (prefixb w s) eqn:E; auto. exfalso. apply H. apply prefixb_eq in E. destruct E as [r ->]. exists [], r. reflexivity. Qed.
Lemma contains_cons w c s : ~ contains w (c :: s) -> ~ contains w s.
Proof. intros H (a & b & E). apply H. exists (c :: a), b. now rewrite E. Qed.
Lemma strstr_none s w : ~ contains w s -> strstr s w = None.
Proof.
  induction s as [|c s IH]; intros H; rewrite strstr_unfold, (contains_prefix _ _ H); auto. rewrite IH; auto. eapply contains_cons; eauto.
Qed.
(** an occurrence of w cannot start in pre if w has no blank and a blank follows pre *)
Lemma prefix_cut w : Forall (fun c => c <> cSP) w -> forall pre s, prefixb w (pre ++ cSP :: s) = true -> exists b, pre = w ++ b.
Proof.
  induction w as [|x w IH]; intros Hw pre s H; [exists pre; reflexivity|]. inversion Hw as [|? ? Hx Hw']; subst. destruct pre as [|c pre]; cbn [app prefixb] in H.
  - apply andb_true_iff in H. destruct H as [H _]. destruct (ceq_spec x cSP); [contradiction|discriminate].
  - apply andb_true_iff in H. destruct H as [H1 H2]. destruct (ceq_spec x c); [|discriminate]. subst c. destruct (IH Hw' _ _ H2) as [b ->]. exists b. reflexivity.
Qed.
Lemma strstr_skip w pre s : w <> [] -> Forall (fun c => c <> cSP) w -> ~ contains w pre ->
  strstr (pre ++ cSP :: s) w = option_map (Nat.add (List.length pre + 1)) (strstr s w).
Proof.
  intros Hne Hw. induction pre as [|c pre IH]; intros H; cbn [app List.length Nat.add].
  - rewrite strstr_unfold. destruct (prefixb w (cSP :: s)) eqn:E.
    + destruct w as [|x w]; [contradiction|]. cbn [prefixb] in E. apply andb_true_iff in E. destruct E as [E _]. inversion Hw; subst. destruct (ceq_spec x cSP); [contradiction|discriminate].
    + destruct (strstr s w); reflexivity.
  - rewrite strstr_unfold. destruct (prefixb w (c :: pre ++ cSP :: s)) eqn:E.
    + exfalso. apply H. destruct (prefix_cut w Hw (c :: pre) s E) as [b ->]. exists [], b. reflexivity.
    + rewrite IH by (eapply contains_cons; eauto). destruct (strstr s w); reflexivity.
Qed.
Lemma strstr_eq p s : ~ In cEQ p -> strstr (p ++ cEQ :: s) [cEQ] = Some (List.length p).
Proof.
  induction p as [|c p IH]; intros H; rewrite strstr_unfold; cbn [app prefixb List.length].
  - unfold ceq. rewrite Ascii.eqb_refl. reflexivity.
  - destruct (ceq_spec cEQ c) as [<-|N]; [exfalso; apply H; now left|]. cbn [andb]. rewrite IH; auto. intros I. apply H. now right.
Qed.
Lemma strstr_sep v s : ~ contains (S_ " --") v -> strstr (v ++ S_ " --" ++ s) (S_ " --") = Some (List.length v).
Proof.
  induction v as [|c v IH]; intros H; rewrite strstr_unfold.
  - reflexivity.
  - destruct (prefixb (S_ " --") ((c :: v) ++ S_ " --" ++ s)) eqn:E.
    + exfalso. apply H. unfold S_ in E. cbn [list_ascii_of_string] in E. destruct v as [|d v]; cbn [app prefixb] in E.
      { change (ceq "-"%char " "%char) with false in E. cbn [andb] in E. rewrite andb_false_r in E. discriminate. }
      destruct v as [|e v]; cbn [app prefixb] in E. { change (ceq "-"%char " "%char) with false in E. cbn [andb] in E. rewrite !andb_false_r in E. discriminate. }
      rewrite andb_true_r in E. apply andb_true_iff in E. destruct E as [E1 E]. apply andb_true_iff in E. destruct E as [E2 E3].
      destruct (ceq_spec " "%char c); [|discriminate]. destruct (ceq_spec "-"%char d); [|discriminate]. destruct (ceq_spec "-"%char e); [|discriminate]. subst c d e. exists [], v. reflexivity.
    + cbn [app]. rewrite IH; [reflexivity|]. eapply contains_cons; eauto.
Qed.
Definition tail (os : list opt) : str := flat_map (fun o => cSP :: show_opt o) os.
Lemma OPT_nosp : Forall (fun c => c <> cSP) OPT.
Proof. cbn. repeat constructor; discriminate. Qed.
Lemma modify_skip k pre s : ~ contains OPT pre -> modify_pars (S k) (pre ++ cSP :: s) = modify_pars (S k) s.
Proof.
  intros H. cbn [modify_pars]. rewrite (strstr_skip OPT pre s) by (auto using OPT_nosp; discriminate).
  destruct (strstr s OPT) as [i|]; cbn [option_map]; auto.
  replace (List.length pre + 1 + i + 13) with (List.length (pre ++ [cSP]) + (i + 13)) by (rewrite app_length; cbn [List.length]; lia).
  replace (pre ++ cSP :: s) with ((pre ++ [cSP]) ++ s) by (rewrite <- app_assoc; reflexivity).
  rewrite skipn_app, skipn_all2 by lia. replace (List.length (pre ++ [cSP]) + (i + 13) - List.length (pre ++ [cSP])) with (i + 13) by lia. reflexivity.
Qed.
Lemma opt_dashes o : opt_ok o -> exists r, show_opt o = S_ "--" ++ r.
Proof. destruct o as [p v|t]; cbn [opt_ok show_opt]; [intros _; eexists; reflexivity|intros [H _]; exact H]. Qed.
Lemma tail_sep os : Forall opt_ok os -> tail os = [] \/ exists r, tail os = S_ " --" ++ r.
Proof. destruct os as [|o os]; intros H; [left; reflexivity|right]. inversion H; subst. destruct (opt_dashes o) as [r E]; auto. exists (r ++ tail os). unfold tail. cbn [flat_map]. rewrite E. reflexivity. Qed.
Lemma modify_one k p v rest : ~ In cEQ p -> ~ contains (S_ " --") v -> (rest = [] \/ exists r, rest = S_ " --" ++ r) ->
  modify_pars (S k) (show_opt (OModify p v) ++ rest) = (do r <- modify_pars k (v ++ rest); Ok ((p, v) :: r)).
Proof.
  intros Hp Hv HR. cbn [modify_pars show_opt].
  replace ((S_ "--modify-par:" ++ p ++ S_ "=" ++ v) ++ rest) with (OPT ++ p ++ cEQ :: (v ++ rest)) by (unfold OPT; rewrite <- !app_assoc; reflexivity).
  assert (E0 : strstr (OPT ++ p ++ cEQ :: (v ++ rest)) OPT = Some 0). { rewrite strstr_unfold. replace (prefixb OPT (OPT ++ p ++ cEQ :: (v ++ rest))) with true; [reflexivity|]. symmetry. apply prefixb_eq. eexists. reflexivity. }
  rewrite E0. replace (skipn (0 + 13) (OPT ++ p ++ cEQ :: (v ++ rest))) with (p ++ cEQ :: (v ++ rest)) by reflexivity.
  rewrite strstr_eq by auto.
  replace (firstn (List.length p) (p ++ cEQ :: v ++ rest)) with p by (rewrite firstn_app, Nat.sub_diag, firstn_all; cbn [firstn]; now rewrite app_nil_r).
  replace (skipn (S (List.length p)) (p ++ cEQ :: v ++ rest)) with (v ++ rest).
  2:{ replace (p ++ cEQ :: v ++ rest) with ((p ++ [cEQ]) ++ v ++ rest) by (rewrite <- app_assoc; reflexivity).
      replace (S (List.length p)) with (List.length (p ++ [cEQ])) by (rewrite app_length; cbn; lia). now rewrite skipn_app, skipn_all, Nat.sub_diag. }
  destruct HR as [->|[r ->]].
  - rewrite app_nil_r, strstr_none by auto. reflexivity.
  - rewrite strstr_sep by auto. replace (firstn (List.length v) (v ++ S_ " --" ++ r)) with v; [reflexivity|]. rewrite firstn_app, Nat.sub_diag, firstn_all. cbn [firstn]. now rewrite app_nil_r.
Qed.
Lemma modify_tail os : Forall opt_ok os -> forall k pre, List.length os < k -> ~ contains OPT pre ->
  modify_pars k (pre ++ tail os) = Ok (modifications os).
Proof.
  induction os as [|o os IH]; intros HO k pre HK HP.
  - destruct k as [|k]; [lia|]. cbn [tail flat_map modify_pars modifications]. rewrite app_nil_r, strstr_none by auto. reflexivity.
  - inversion HO as [|? ? H1 H2]; subst. destruct k as [|k]; [lia|]. cbn [List.length] in HK.
    change (tail (o :: os)) with (cSP :: show_opt o ++ tail os). rewrite modify_skip by auto. destruct o as [p v|t]; cbn [opt_ok] in H1.
    + destruct H1 as (A & B & C). rewrite modify_one by (auto using tail_sep). rewrite IH by (auto; lia). reflexivity.
    + destruct H1 as (A & B). cbn [show_opt]. rewrite IH by (auto; lia). reflexivity.
Qed.
Lemma join_tail o os : join_sp (map show_opt (o :: os)) = show_opt o ++ tail os.
Proof.
  revert o. induction os as [|o' os IH]; intros o; [cbn [map join_sp tail flat_map]; now rewrite app_nil_r|].
  change (join_sp (map show_opt (o :: o' :: os))) with (show_opt o ++ cSP :: join_sp (map show_opt (o' :: os))). rewrite IH. reflexivity.
Qed.
Lemma opt_len os : List.length os <= List.length (tail os).
Proof. induction os as [|o os IH]; auto. change (tail (o :: os)) with (cSP :: show_opt o ++ tail os). cbn [List.length]. rewrite app_length. lia. Qed.
(** The --modify-par options are found, in order, with exactly their names and values, whatever other options are given. *)
Theorem C53_modify_par os : Forall opt_ok os -> parse_command_line_options (join_sp (map show_opt os)) = Ok (modifications os).
Proof.
  intros HO. unfold parse_command_line_options. destruct os as [|o os]; [reflexivity|]. rewrite join_tail.
  inversion HO as [|? ? H1 H2]; subst.
  assert (NP : ~ contains OPT []). { intros (a & b & E). apply (f_equal (@List.length _)) in E. rewrite !app_length in E. cbn in E. lia. }
  rewrite <- (modify_skip _ [] _ NP). cbn [app]. change (cSP :: show_opt o ++ tail os) with ([] ++ tail (o :: os)).
  apply modify_tail; auto. rewrite app_length. pose proof (opt_len os). cbn [List.length].
  destruct (opt_dashes o H1) as [r ->]. cbn. lia.
Qed.
Print Assumptions C53_modify_par.

Definition dashed (a : str) : bool := prefixb (S_ "-") a.
Lemma read_args_ok args : Forall (fun a => dashed a = true -> exists r, a = S_ "--" ++ r) args -> forall done,
  List.length (join_sp (done ++ filter dashed args)) < 1000 ->
  read_args args (join_sp done) (List.length done) = Ok (join_sp (done ++ filter dashed args), List.length (done ++ filter dashed args), filter (fun a => negb (dashed a)) args).
Proof.
  induction args as [|a args IH]; intros HA done HL; cbn [read_args filter].
  - now rewrite app_nil_r.
  - inversion HA as [|? ? H1 H2]; subst. destruct (dashed a) eqn:D.
    + destruct (H1 eq_refl) as [r ->]. cbn [S_ list_ascii_of_string app] in *. cbn [ceq Ascii.eqb Bool.eqb].
      cbn [filter] in HL. rewrite D in HL.
      set (a := "-"%char :: "-"%char :: r) in *.
      assert (E : (if 0 <? List.length done then join_sp done ++ [cSP] else join_sp done) ++ a = join_sp (done ++ [a])).
      { clear. destruct done as [|d done]; [reflexivity|]. cbn [List.length Nat.ltb Nat.leb]. revert d. induction done as [|e done IHd]; intros d.
        - cbn [app join_sp]. now rewrite <- app_assoc.
        - specialize (IHd e). change (join_sp ((d :: e :: done) ++ [a])) with (d ++ cSP :: join_sp ((e :: done) ++ [a])). rewrite <- IHd.
          change (join_sp (d :: e :: done)) with (d ++ cSP :: join_sp (e :: done)). rewrite <- !app_assoc. reflexivity. }
      assert (LA : List.length a <= 999 /\ List.length (join_sp (done ++ [a])) < 1000).
      { rewrite <- E. assert (Q : forall x y, List.length (join_sp x) <= List.length (join_sp (x ++ y))).
        { clear. induction x as [|x0 x IHx]; intros y; [cbn; lia|]. destruct x as [|x1 x]; [destruct y; cbn [app join_sp]; [lia|rewrite app_length; lia]|].
          change (join_sp (x0 :: x1 :: x)) with (x0 ++ cSP :: join_sp (x1 :: x)). change (join_sp ((x0 :: x1 :: x) ++ y)) with (x0 ++ cSP :: join_sp ((x1 :: x) ++ y)).
          rewrite !app_length. cbn [List.length]. specialize (IHx y). lia. }
        specialize (Q (done ++ [a]) (filter dashed args)). rewrite <- app_assoc in Q. cbn [app] in Q. rewrite <- E in Q. rewrite app_length in *. lia. }
      destruct LA as [L1 L2]. rewrite firstn_all2 by lia. rewrite E. replace (1000 <=? List.length (join_sp (done ++ [a]))) with false by (symmetry; apply Nat.leb_gt; lia).
      replace (S (List.length done)) with (List.length (done ++ [a])) by (rewrite app_length; cbn; lia).
      rewrite IH; auto; rewrite <- !app_assoc; auto.
    + cbn [negb]. cbn [filter] in HL. rewrite D in HL. destruct a as [|c a].
      * rewrite IH by auto. reflexivity.
      * unfold dashed in D. cbn in D. rewrite andb_true_r in D. destruct (ceq_spec c "-"%char) as [->|N]; [discriminate|].
        rewrite IH by auto. reflexivity.
Qed.
(** Options are collected in order, separated by single blanks; the other arguments stay in order. *)
Theorem C53_collect args : Forall (fun a => dashed a = true -> exists r, a = S_ "--" ++ r) args -> List.length (join_sp (filter dashed args)) < 1000 ->
  read_args args [] 0 = Ok (join_sp (filter dashed args), List.length (filter dashed args), filter (fun a => negb (dashed a)) args).
Proof. intros H L. exact (read_args_ok args H [] L). Qed.
Print Assumptions C53_collect.
(** Effect on the data base: after the options are applied, a modified parameter has the value given last, all others are unchanged. *)
Theorem C53_effect D atof atoi fmt hist os d st0 st mods : Forall opt_ok os ->
  parse_command_line_options (join_sp (map show_opt os)) = Ok mods ->
  prun D atof atoi fmt (pdb_init D) hist = Ok st0 ->
  prun D atof atoi fmt st0 (map (fun m => AddOrModifyPar (fst m) (snd m) d) mods) = Ok st ->
  forall n, gets_lax D st n = match last_value (modifications os) n with Some v => Some (stored fmt v) | None => gets_lax D st0 n end.
Proof.
  intros HO EM E0 E n. rewrite C53_modify_par in EM by auto. injection EM as <-.
  pose proof (run_init D atof atoi fmt hist) as R0. rewrite E0 in R0. destruct (spec_run fmt (pempty, 0) hist) as [s0| |]; try contradiction. cbn [same_out] in R0.
  pose proof (run_rel D atof atoi fmt (map (fun m => AddOrModifyPar (fst m) (snd m) d) (modifications os)) st0 s0 R0) as R. rewrite E in R.
  assert (Q : forall l s, spec_run fmt s (map (fun m => AddOrModifyPar (fst m) (snd m) d) l) = passign_all fmt s l).
  { induction l as [|[a b] l IH]; intros s; [reflexivity|]. cbn [map spec_run passign_all spec_step fst snd]. destruct (passign fmt s a b); cbn [rbind]; auto. }
  rewrite Q in R. destruct (passign_all fmt s0 (modifications os)) as [s| |] eqn:EP; try contradiction.
  change (gets_lax D st n) with (lookup D st n). change (gets_lax D st0 n) with (lookup D st0 n).
  destruct R as (_ & L & _). destruct R0 as (_ & L0 & _). rewrite L, L0. exact (passign_all_get fmt _ s0 s n EP).
Qed.
Print Assumptions C53_effect.
(** Name of the parameter file and of the output directory. *)
Theorem C53_parfile a : 
  (forall x, x <> [] -> a = x ++ S_ ".par" -> parfile_name a = a /\ outdir_name a = x) /\
  ((forall x, x <> [] -> a <> x ++ S_ ".par") -> parfile_name a = a ++ S_ ".par" /\ outdir_name a = a).
Proof.
  assert (LAST : forall x : str, skipn (List.length (x ++ S_ ".par") - 4) (x ++ S_ ".par") = S_ ".par").
  { intros x. rewrite app_length. replace (List.length x + List.length (S_ ".par") - 4) with (List.length x) by (cbn; lia). now rewrite skipn_app, skipn_all, Nat.sub_diag. }
  assert (FST : forall x : str, firstn (List.length (x ++ S_ ".par") - 4) (x ++ S_ ".par") = x).
  { intros x. rewrite app_length. replace (List.length x + List.length (S_ ".par") - 4) with (List.length x) by (cbn; lia). rewrite firstn_app, firstn_all, Nat.sub_diag. cbn [firstn]. apply app_nil_r. }
  assert (FOUND : forall x y : str, strstr (x ++ S_ ".par" ++ y) (S_ ".par") <> None).
  { induction x as [|c x IH]; intros y; rewrite strstr_unfold.
    - replace (prefixb (S_ ".par") ([] ++ S_ ".par" ++ y)) with true; [discriminate|]. symmetry. apply prefixb_eq. exists y. reflexivity.
    - destruct (prefixb _ _); [discriminate|]. cbn [app]. specialize (IH y). destruct (strstr (x ++ S_ ".par" ++ y) (S_ ".par")); [discriminate|contradiction]. }
  split.
  - intros x NE ->. assert (P : parfile_name (x ++ S_ ".par") = x ++ S_ ".par").
    { unfold parfile_name. specialize (FOUND x []). rewrite app_nil_r in FOUND. destruct (strstr (x ++ S_ ".par") (S_ ".par")); [|contradiction]. cbn [orb].
      replace (List.length (x ++ S_ ".par") <? 5) with false. 2:{ symmetry. apply Nat.ltb_ge. rewrite app_length. destruct x; [contradiction|]. cbn. lia. }
      rewrite LAST. reflexivity. }
    split; [exact P|]. unfold outdir_name. rewrite P. apply FST.
  - intros N. assert (P : parfile_name a = a ++ S_ ".par").
    { unfold parfile_name. destruct (_ || _) eqn:E.
      - rewrite LAST. reflexivity.
      - apply orb_false_iff in E. destruct E as [_ E]. apply Nat.ltb_ge in E.
        destruct (strstr (skipn (List.length a - 4) a) (S_ ".par")) as [k|] eqn:F; [|reflexivity]. exfalso.
        pose proof (strstr_prefix _ _ _ F) as PF. apply prefixb_eq in PF. destruct PF as [r PF]. 
        assert (LS : List.length (skipn (List.length a - 4) a) = 4) by (rewrite skipn_length; lia).
        pose proof (f_equal (@List.length _) PF) as PL. rewrite skipn_length, LS, app_length in PL. change (List.length (S_ ".par")) with 4 in PL. assert (k = 0) by lia. assert (LR : List.length r = 0) by lia.
        destruct r; [|discriminate]. subst k. cbn [skipn] in PF. rewrite app_nil_r in PF.
        apply (N (firstn (List.length a - 4) a)).
        + intros Q. apply (f_equal (@List.length _)) in Q. rewrite firstn_length in Q. cbn in Q. lia.
        + rewrite <- PF. symmetry. apply firstn_skipn. }
    split; [exact P|]. unfold outdir_name. rewrite P. apply FST.
Qed.
Print Assumptions C53_parfile.
(** A malformed option swallows the next one. *)
Theorem C53_malformed_refuted : parse_command_line_options (S_ "--modify-par:a --modify-par:b=1") = Ok [(S_ "a --modify-par:b", S_ "1")].
Proof. vm_compute. reflexivity. Qed.
Print Assumptions C53_malformed_refuted.
Example C53_example : Forall opt_ok [OModify (S_ "x") (S_ "1 - 2"); OOther (S_ "--keep_previous"); OModify (S_ "x") (S_ "pi")] /\
  parse_command_line_options (S_ "--modify-par:x=1 - 2 --keep_previous --modify-par:x=pi") = Ok [(S_ "x", S_ "1 - 2"); (S_ "x", S_ "pi")] /\
  outdir_name (S_ "run.par") = S_ "run" /\ parfile_name (S_ "run") = S_ "run.par".
Proof.
  split; [|vm_compute; auto].
  assert (T : forall w s, strstr s w = None -> ~ contains w s).
  { intros w s H (a & b & ->). revert H. induction a as [|c a IH]; rewrite strstr_unfold.
    - replace (prefixb w ([] ++ w ++ b)) with true; [discriminate|]. symmetry. apply prefixb_eq. exists b. reflexivity.
    - destruct (prefixb _ _); [discriminate|]. cbn [app]. destruct (strstr (a ++ w ++ b) w); [discriminate|]. auto. }
  repeat constructor; cbn [opt_ok]; repeat split; try (apply T; vm_compute; reflexivity); try (intros [H|H]; [discriminate|destruct H]).
  eexists. reflexivity.
Qed.
