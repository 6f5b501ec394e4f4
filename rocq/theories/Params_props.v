(** Properties C01-C04: parameter files, parameter data base, Getv, NextEntry. *)
From Verif Require Import Base Params_model Params_spec Params_api_spec
  Params_parse_proofs Params_db_proofs Params_pdb_proofs.

(** ** C01 *)
(** Every well-formed file, however laid out, means the list of its assignments. *)
Theorem C01_parse_layout : forall f : pfile,
  file_ok f -> (Z.of_nat (List.length (show_file f)) <= 1000996)%Z ->
  parse_text (show_file f) = Ok (meaning f).
Proof. exact parse_show. Qed.
Print Assumptions C01_parse_layout.

(** Effect of reading a file on the data base: a parameter gets the last value the file gives
    it, parameters the file does not name keep their value. *)
Theorem C01_read_file : forall D atof atoi fmt (st st' : pdb_state D) (s : pmap * nat) (f : pfile),
  file_ok f -> (Z.of_nat (List.length (show_file f)) <= 1000996)%Z ->
  Rel D atof atoi st s ->
  parse_parameter_file D atof atoi fmt st (show_file f) = Ok st' ->
  forall n, gets_lax D st' n =
    match last_value (meaning f) n with
    | Some v => Some (stored fmt v)
    | None => gets_lax D st n
    end.
Proof.
  intros D atof atoi fmt st st' s f Hf Hl R H n.
  unfold parse_parameter_file in H. rewrite (parse_show f Hf Hl) in H. cbn [rbind] in H.
  pose proof (assign_all_rel D atof atoi fmt (meaning f) st s R) as Q. rewrite H in Q.
  destruct (passign_all fmt s (meaning f)) as [s'| |] eqn:E; try contradiction.
  destruct Q as (_ & L & _). destruct R as (_ & L0 & _).
  change (gets_lax D st' n) with (lookup D st' n). change (gets_lax D st n) with (lookup D st n).
  rewrite L, L0. exact (passign_all_get fmt (meaning f) s s' n E).
Qed.
Print Assumptions C01_read_file.

(** A file with comments, quotes, an empty value and odd spacing. *)
Definition example_file : pfile := {|
  f_asgs := [
    {| a_lead := [GComment (S_ " my = run")]; a_name := S_ "nboxes"; a_eq := [GBlank cSP];
       a_words := [([GBlank cSP; GBlank "009"%char], S_ "3")] |};
    {| a_lead := [GBlank cNL]; a_name := S_ "outvars"; a_eq := [];
       a_words := [([GQuote], S_ "psi"); ([GBlank cSP], S_ "phi")] |};
    {| a_lead := [GQuote; GBlank cNL]; a_name := S_ "x"; a_eq := [GBlank cSP]; a_words := [] |};
    {| a_lead := [GBlank cNL]; a_name := S_ "y"; a_eq := []; a_words := [([], S_ "1")] |}];
  f_tail := [GBlank cNL]; f_open := Some (S_ " end") |}.
Example C01_example : file_ok example_file /\
  (Z.of_nat (List.length (show_file example_file)) <= 1000996)%Z /\
  parse_text (show_file example_file)
  = Ok [(S_ "nboxes", S_ "3"); (S_ "outvars", S_ "psi phi"); (S_ "x", []); (S_ "y", S_ "1")].
Proof.
  split; [|split; [vm_compute; discriminate|vm_compute; reflexivity]].
  unfold file_ok, asg_ok, words_ok, gap_ok, gapitem_ok, word, plain, blank; cbn.
  repeat first [split | apply Forall_cons | apply Forall_nil]; cbn;
  try discriminate; try (intuition discriminate); auto 10.
Qed.

(** Outside the documented syntax: "a==b" makes the reader run past the text. *)
Theorem C01_malformed_refuted : exists file, parse_text file = UB.
Proof. exists (S_ "a==b"). vm_compute. reflexivity. Qed.
Print Assumptions C01_malformed_refuted.

(** ** C02 *)
(** Every history of API calls behaves like the abstract map (same values, same aborts). *)
Theorem C02_refines_map : forall D atof atoi fmt (os : list pop),
  match prun D atof atoi fmt (pdb_init D) os, spec_run fmt (pempty, 0) os with
  | Ok st, Ok s =>
      (forall n, gets_lax D st n = fst s n) /\
      (forall n, gets D st n = match fst s n with Some v => Ok v | None => Err end) /\
      List.length (db D st) = snd s /\
      NoDup (map (p_name D) (db D st)) /\
      (forall p, In p (db D st) ->
         p_num D p = atof (p_value D p) /\ p_bool D p = boolvalue atoi (p_value D p))
  | Err, Err => True
  | UB, UB => True
  | _, _ => False
  end.
Proof.
  intros D atof atoi fmt os. pose proof (run_init D atof atoi fmt os) as Q.
  destruct (prun D atof atoi fmt (pdb_init D) os) as [st| |], (spec_run fmt (pempty, 0) os) as [s| |]; auto.
  pose proof Q as ((ND & Sz & Ca) & L & C).
  split; [exact L|]. split; [intros n; exact (gets_rel D atof atoi st s n Q)|].
  split; [exact C|]. split; [exact ND|].
  intros p Hp. exact (proj1 (Forall_forall _ _) Ca p Hp).
Qed.
Print Assumptions C02_refines_map.

(** The position where the search starts never matters. *)
Theorem C02_start_irrelevant : forall D atof atoi fmt os st i n,
  prun D atof atoi fmt (pdb_init D) os = Ok st ->
  gets_lax D {| db := db D st; iStart := i |} n = gets_lax D st n.
Proof.
  intros D atof atoi fmt os st i n H. pose proof (run_init D atof atoi fmt os) as Q. rewrite H in Q.
  destruct (spec_run fmt (pempty, 0) os); try contradiction. destruct Q as ((ND & _) & _).
  destruct st as [l j]. eapply lookup_istart; try exact ND; eauto.
Qed.
Print Assumptions C02_start_irrelevant.

(** The value argument must not be the parameter's own value string. *)
Theorem C02_self_assignment_refuted : forall D atof atoi fmt (st : pdb_state D) n v,
  gets D st n = Ok v -> sets_from_gets D atof atoi fmt st n n = UB.
Proof. exact sets_self_ub. Qed.
Print Assumptions C02_self_assignment_refuted.

Definition ex_ops : list pop :=
  [AddPar (S_ "a") (S_ "1") []; AddPar (S_ "b") (S_ "pi") []; SetStart (S_ "b");
   Sets (S_ "a") (S_ "2"); Appends (S_ "a") (S_ "3"); AddPar (S_ "a") (S_ "9") (S_ "again");
   ReadFile (S_ "c = x y")].
Example C02_example :
  exists st, prun Z (fun _ => 0%Z) (fun _ => 0%Z) (fun _ => S_ "3.14") (pdb_init Z) ex_ops = Ok st /\
   gets_lax Z st (S_ "a") = Some (S_ "2 3") /\ gets_lax Z st (S_ "b") = Some (S_ "3.14") /\
   gets_lax Z st (S_ "c") = Some (S_ "x y").
Proof. eexists. split; [vm_compute; reflexivity|]. vm_compute. auto. Qed.
Example C02_example_abort :
  prun Z (fun _ => 0%Z) (fun _ => 0%Z) (fun v => v) (pdb_init Z) [Sets (S_ "a") (S_ "1")] = Err.
Proof. reflexivity. Qed.

(** ** C03 *)
(** The full claim fails: the word is in the list but Getv says no. *)
Theorem C03_getv_refuted : exists v w,
  Forall (fun c => c <> cSP) w /\ w <> [] /\ In w (words_of v) /\ getv v w = false.
Proof.
  exists (S_ "xfoo foo"), (S_ "foo"). repeat split; try discriminate.
  - repeat constructor; discriminate.
  - right; left; reflexivity.
Qed.
Print Assumptions C03_getv_refuted.

(** A positive answer is always right; the answer is complete if no word merely ends in w. *)
Theorem C03_getv_partial : forall v w, Forall (fun c => c <> cSP) w ->
  (getv v w = true -> In w (words_of v)) /\
  ((forall u, In u (words_of v) -> (exists x, u = x ++ w) -> u = w) ->
   In w (words_of v) -> getv v w = true).
Proof.
  intros v w Hw. split; [now apply getv_sound|]. intros H1 H2. now apply getv_complete.
Qed.
Print Assumptions C03_getv_partial.

(** Exactly when Getv says yes: the first word ending in w is w itself. *)
Theorem C03_getv_exact : forall v w, Forall (fun c => c <> cSP) w ->
  (getv v w = true <->
   exists pre post, words_of v = pre ++ w :: post /\
     Forall (fun u => ~ exists x, u = x ++ w) pre).
Proof. exact getv_exact. Qed.
Print Assumptions C03_getv_exact.
Example C03_example : getv (S_ "foox foo bar") (S_ "foo") = true /\ getv (S_ "foox fo") (S_ "foo") = false.
Proof. split; reflexivity. Qed.

(** ** C04 *)
(** NextEntry lists the words and then returns 0 and is ready to start again.  The first word
    must not be empty; further words may be (double blanks). *)
Theorem C04_next_entry : forall (w : str) (ws : list str) st,
  Forall (Forall (fun c => c <> cSP /\ c <> NUL)) (w :: ws) -> w <> [] -> ne_i st = 0 ->
  exists st', next_entries (S (S (List.length ws))) st (Some (join_sp (w :: ws)))
    = (st', map Some (w :: ws) ++ [None]) /\ ne_i st' = 0.
Proof. exact next_entries_all. Qed.
Print Assumptions C04_next_entry.
Example C04_example :
  snd (next_entries 4 ne_init (Some (S_ "psi phi K"))) = [Some (S_ "psi"); Some (S_ "phi"); Some (S_ "K"); None].
Proof. reflexivity. Qed.

(** With a leading blank the enumeration never ends. *)
Theorem C04_leading_blank_refuted : forall k (txt : str),
  snd (next_entries k ne_init (Some (cSP :: txt))) = repeat (Some []) k.
Proof. intros k txt. now apply next_entries_blank_forever. Qed.
Print Assumptions C04_leading_blank_refuted.

(** An enumeration left early is continued even if another list is passed. *)
Theorem C04_interleaved_refuted : exists l1 l2 e,
  let st := fst (next_entry ne_init (Some l1)) in
  snd (next_entry st (Some l2)) = Some e /\ ~ In e (words_of l2).
Proof.
  exists (S_ "a b"), (S_ "c d"), (S_ "b"). split; [reflexivity|].
  vm_compute. intros [H|[H|[]]]; discriminate.
Qed.
Print Assumptions C04_interleaved_refuted.
