(** C20: checkpoint files round-trip. *)
From Verif Require Import Base Params_model Params_spec Params_api_spec Params_pdb_proofs Args_model Endian_model Endian_spec Endian_props Ckpt_model Ckpt_spec Ckpt_proofs.

Lemma dec_len : forall d fuel n, n < 10 ^ d -> 0 < d -> List.length (dec fuel n) <= d.
Proof.
  induction d as [|d IH]; intros fuel n H P; [lia|]. destruct fuel as [|k]; [cbn; lia|]. cbn [dec]. destruct (n <? 10) eqn:E; [cbn; lia|]. apply Nat.ltb_ge in E.
  rewrite app_length. cbn [List.length]. destruct d as [|d]; [cbn in H; lia|]. assert (Q : n / 10 < 10 ^ S d). { apply Nat.div_lt_upper_bound; [lia|]. rewrite <- Nat.pow_succ_r'. exact H. }
  specialize (IH k (n / 10) Q). lia.
Qed.
Lemma pr_d_len z : int_ok z -> (Z.of_nat (List.length (pr_d z)) < 12)%Z.
Proof.
  unfold int_ok. intros H. assert (P : forall n, (Z.of_nat n <= 2147483648)%Z -> List.length (pr_n n) <= 10).
  { intros n L. apply dec_len; [|lia]. apply Nat2Z.inj_lt. rewrite Nat2Z.inj_pow. change (Z.of_nat 10 ^ Z.of_nat 10)%Z with 10000000000%Z. lia. }
  unfold pr_d. destruct (z <? 0)%Z eqn:E; [apply Z.ltb_lt in E|apply Z.ltb_ge in E].
  - cbn [List.length]. specialize (P (Z.to_nat (- z))). lia.
  - specialize (P (Z.to_nat z)). lia.
Qed.
Lemma nth_error_ext_ {A} : forall (l l' : list A), (forall i, nth_error l i = nth_error l' i) -> l = l'.
Proof.
  induction l as [|a l IH]; intros [|b l'] H; auto; try (specialize (H 0); discriminate). f_equal; [specialize (H 0); now injection H|]. apply IH. intros i. apply (H (S i)).
Qed.
Section CK.
Variable D : Type.
Variable fmt_g : D -> str.
Variable atof : str -> D.
Variable fmt : str -> str.
(** ** writing *)
Fixpoint box_entries (names : list str) (b : nat) (x : wbox) (vl : list nat) : list entry :=
  match vl with
  | [] => []
  | i :: r => match nth_error (w_v x) i, nth_error names i with
              | Some (Some ws), Some n => (b, n, ws) :: box_entries names b x r
              | _, _ => box_entries names b x r
              end
  end.
Fixpoint entries (names : list str) (b : nat) (xs : list wbox) (vl : list nat) : list entry :=
  match xs with [] => [] | x :: r => box_entries names b x vl ++ entries names (S b) r vl end.
Lemma put_box_ok h c0 names b x : List.length c0 = 8 -> wbox_ok names x -> forall vl, Forall (fun i => i < List.length names) vl ->
  put_box h c0 names b (mem h x) vl = Ok (flat_map show_entry (box_entries names b x vl)).
Proof.
  intros L0 (LV & _ & LW). induction vl as [|i vl IH]; intros F; [reflexivity|]. inversion F as [|? ? F1 F2]; subst. cbn [put_box box_entries mem c_v].
  rewrite nth_error_map. destruct (nth_error (w_v x) i) as [o|] eqn:EV; [|apply nth_error_None in EV; lia]. cbn [option_map].
  destruct (nth_error names i) as [n|] eqn:EN; [|apply nth_error_None in EN; lia].
  destruct o as [ws|]; cbn [option_map]; [|now apply IH]. unfold put_var, fwrite_double_little. change (c_nnodes (mem h x)) with (w_nnodes x).
  rewrite <- (LW i ws EV). destruct (C19_write_portable h c0 8 ws []) as [W _]; [lia|auto|]. rewrite W. cbn [rbind snd app].
  change ({| c_nnodes := w_nnodes x; c_v := map (option_map (array_image h 8)) (w_v x) |}) with (mem h x).
  rewrite IH by auto. cbn [rbind flat_map]. f_equal.
Qed.
Lemma put_boxes_ok h c0 names vl : List.length c0 = 8 -> Forall (fun i => i < List.length names) vl -> forall xs b, Forall (wbox_ok names) xs ->
  put_boxes h c0 names b (map (mem h) xs) vl = Ok (flat_map show_entry (entries names b xs vl)).
Proof.
  intros L0 F. induction xs as [|x xs IH]; intros b H; [reflexivity|]. inversion H; subst. cbn [map put_boxes entries]. rewrite put_box_ok by auto. cbn [rbind].
  rewrite IH by auto. cbn [rbind]. now rewrite flat_map_app.
Qed.
Lemma in_box_entries names b x vl b' n ws : In (b', n, ws) (box_entries names b x vl) <-> b' = b /\ exists j, In j vl /\ nth_error names j = Some n /\ nth_error (w_v x) j = Some (Some ws).
Proof.
  induction vl as [|i vl IH]; cbn [box_entries].
  - split; [intros []|intros (_ & j & [] & _)].
  - assert (STEP : In (b', n, ws) (box_entries names b x vl) -> b' = b /\ exists j, In j (i :: vl) /\ nth_error names j = Some n /\ nth_error (w_v x) j = Some (Some ws)).
    { rewrite IH. intros (A & j & B & C & E). split; auto. exists j. split; [now right|auto]. }
    destruct (nth_error (w_v x) i) as [[u|]|] eqn:EV; [destruct (nth_error names i) as [m|] eqn:EN|..].
    + split.
      * intros [[= -> -> ->]|I]; [|auto]. split; auto. exists i. repeat split; auto. now left.
      * intros (-> & j & [<-|I] & C & E); [left; congruence|]. right. apply IH. split; auto. now exists j.
    + split; auto. intros (-> & j & [<-|I] & C & E); [congruence|]. apply IH. split; auto. now exists j.
    + split; auto. intros (-> & j & [<-|I] & C & E); [congruence|]. apply IH. split; auto. now exists j.
    + split; auto. intros (-> & j & [<-|I] & C & E); [congruence|]. apply IH. split; auto. now exists j.
Qed.
Lemma in_entries names vl b' n ws : forall xs b, In (b', n, ws) (entries names b xs vl) <-> exists k, b' = b + k /\ saved names xs vl k n ws.
Proof.
  induction xs as [|x xs IH]; intros b; cbn [entries].
  - split; [intros []|]. intros (k & _ & x & j & E & _). destruct k; discriminate.
  - rewrite in_app_iff, in_box_entries, IH. split.
    + intros [(-> & j & A & B & C)|(k & -> & x' & j & E & A & B & C)].
      * exists 0. split; [lia|]. exists x, j. auto.
      * exists (S k). split; [lia|]. exists x', j. auto.
    + intros ([|k] & -> & x' & j & E & A & B & C).
      * left. injection E as ->. split; [lia|]. exists j. auto.
      * right. exists k. split; [lia|]. exists x', j. auto.
Qed.
(** ** reading of the header and the parameters *)
Definition goodtok (w : str) : Prop := tok w /\ (Z.of_nat (List.length w) < 10000)%Z.
Lemma int_goodtok z : int_ok z -> goodtok (pr_d z).
Proof. intros H. split; [apply pr_d_tok|]. pose proof (pr_d_len z H). lia. Qed.
Lemma hit f par a v r : fscan SIZE f = Ok (Some (par, S_ " = " ++ v ++ r)) -> goodtok v -> starts_space r -> a = Ok (Some (v, r)) -> fgetparameter SIZE f par = a.
Proof.
  intros E [T L] S0 ->. apply (fgetparameter_hit _ _ _ (S_ " = " ++ v ++ r) (cSP :: v ++ r)); auto.
  apply (fscan_tok SIZE [cSP] v r); auto.
Qed.
Lemma read_head st time it nb ps rest : goodtok (fmt_g time) -> int_ok it -> int_ok (Z.of_nat nb - 1) -> int_ok (Z.of_nat (List.length ps)) -> 
  read_ParsAndIterations D atof fmt st (put_header D fmt_g nb time it ++ put_pars ps ++ rest) =
  (let t := cNL :: flat_map (fun p => fst p ++ S_ " = " ++ snd p ++ [cNL]) ps ++ S_ "$END_parameter_database" ++ cNL :: cNL :: rest in
   do q <- read_pars D atof fmt (S (List.length t)) st t; Ok (fst q, atof (fmt_g time), it, snd q)).
Proof.
  intros HT HI HB HP. unfold read_ParsAndIterations, put_header, put_pars.
  set (t := cNL :: flat_map (fun p => fst p ++ S_ " = " ++ snd p ++ [cNL]) ps ++ S_ "$END_parameter_database" ++ cNL :: cNL :: rest).
  set (f6 := S_ "  " ++ S_ "$number_of_parameters" ++ S_ " = " ++ pr_d (Z.of_nat (List.length ps)) ++ t).
  set (f5 := cNL :: S_ "$END_checkpoint_header" ++ cNL :: cNL :: S_ "$BEGIN_parameter_database:" ++ f6).
  set (f4 := S_ " , $iteration = " ++ pr_d it ++ f5).
  set (f3 := S_ " , $time = " ++ fmt_g time ++ f4).
  set (f2 := S_ " , $bmax = " ++ pr_d (Z.of_nat nb - 1) ++ f3).
  set (f1 := S_ "  $bmin = " ++ pr_d 0 ++ f2).
  replace (_ ++ _ ++ rest) with (S_ "$BEGIN_checkpoint_header:" ++ f1).
  2:{ unfold f1, f2, f3, f4, f5, f6, t. rewrite <- !app_assoc. cbn [app]. rewrite <- ?app_assoc. cbn [app]. rewrite <- ?app_assoc. cbn [app]. reflexivity. }
  rewrite (fgotonext_hit _ _ f1) by reflexivity. cbn [rbind]. unfold fgetparameter_keep at 1.
  rewrite (hit f1 (S_ "$bmin") _ (pr_d 0) f2 eq_refl (int_goodtok 0 ltac:(unfold int_ok; lia)) eq_refl eq_refl). cbn [rbind fst snd]. unfold fgetparameter_keep at 1.
  rewrite (fgetparameter_skip SIZE f2 _ (S_ ",") (S_ " $bmax = " ++ pr_d (Z.of_nat nb - 1) ++ f3)) by reflexivity.
  rewrite (hit (S_ " $bmax = " ++ pr_d (Z.of_nat nb - 1) ++ f3) (S_ "$bmax") _ (pr_d (Z.of_nat nb - 1)) f3 eq_refl (int_goodtok _ HB) eq_refl eq_refl). cbn [rbind fst snd]. unfold fgetparameter_keep at 1.
  rewrite (fgetparameter_skip SIZE f3 _ (S_ ",") (S_ " $time = " ++ fmt_g time ++ f4)) by reflexivity.
  rewrite (hit (S_ " $time = " ++ fmt_g time ++ f4) (S_ "$time") _ (fmt_g time) f4 eq_refl HT eq_refl eq_refl). cbn [rbind fst snd]. unfold fgetparameter_keep at 1.
  rewrite (fgetparameter_skip SIZE f4 _ (S_ ",") (S_ " $iteration = " ++ pr_d it ++ f5)) by reflexivity.
  rewrite (hit (S_ " $iteration = " ++ pr_d it ++ f5) (S_ "$iteration") _ (pr_d it) f5 eq_refl (int_goodtok _ HI) eq_refl eq_refl). cbn [rbind fst snd].
  rewrite (fgotonext_skip f5 _ (S_ "$END_checkpoint_header") (cNL :: cNL :: S_ "$BEGIN_parameter_database:" ++ f6)) by (reflexivity || discriminate).
  rewrite (fgotonext_hit _ _ f6) by reflexivity. cbn [rbind]. unfold fgetparameter_keep.
  rewrite (hit f6 (S_ "$number_of_parameters") _ (pr_d (Z.of_nat (List.length ps))) t eq_refl (int_goodtok _ HP) eq_refl eq_refl). cbn [rbind fst snd].
  rewrite atoi_pr_d. reflexivity.
Qed.
Lemma saved_unique names xs vl b n ws ws' : NoDup names -> saved names xs vl b n ws -> saved names xs vl b n ws' -> ws = ws'.
Proof.
  intros ND (x & j & EX & _ & EN & EV) (x' & j' & EX' & _ & EN' & EV'). assert (x' = x) by congruence. subst x'.
  assert (j' = j). { apply (proj1 (NoDup_nth_error names) ND); [apply nth_error_Some; congruence|congruence]. } subst. congruence.
Qed.
Lemma in_find (ps : list (str * str)) n v : NoDup (map fst ps) -> In (n, v) ps -> find (fun p => str_eqb (fst p) n) ps = Some (n, v).
Proof.
  induction ps as [|[m u] ps IH]; intros ND []; cbn [find fst]; inversion ND as [|? ? NI ND']; subst.
  - injection H as -> ->. now rewrite str_eqb_refl.
  - rewrite str_eqb_neq; auto. intros ->. apply NI. change n with (fst (n, v)). now apply in_map.
Qed.
(** names and values of a data base in the order of their indices *)
Definition pars (st : pdb_state D) : list (str * str) := map (fun p => (p_name D p, p_value D p)) (db D st).
Lemma pars_find (st : pdb_state D) n : NoDup (map fst (pars st)) ->
  match find (fun p => str_eqb (fst p) n) (pars st) with Some p => Some (snd p) | None => None end = gets_lax D st n.
Proof.
  intros ND. assert (NE : map fst (pars st) = names D st) by (unfold pars, names; now rewrite map_map). change (gets_lax D st n) with (lookup D st n).
  destruct (find _ (pars st)) as [p|] eqn:F.
  - apply List.find_some in F. destruct F as [I E]. apply str_eqb_eq in E. unfold pars in I. apply in_map_iff in I. destruct I as (q & <- & I). cbn [fst snd] in *.
    apply In_nth_error in I. destruct I as [k I]. symmetry. eapply (lookup_nth D atof atoi fmt); eauto. now rewrite <- NE.
  - symmetry. apply (lookup_find D atof atoi fmt). apply (find_none D atof atoi fmt). intros I. unfold names in I. apply in_map_iff in I. destruct I as (q & E & I).
    pose proof (List.find_none _ _ F (p_name D q, p_value D q)) as N. cbn [fst] in N. rewrite E, str_eqb_refl in N. discriminate N. unfold pars. apply in_map_iff. exists q. rewrite E. auto.
Qed.

Lemma put_shape h names : forall es xs, Forall (box_ok names) xs -> Forall (entry_ok xs) es -> map c_nnodes (fold_left (put h names) es xs) = map c_nnodes xs.
Proof.
  induction es as [|e es IH]; intros xs HB HE; [reflexivity|]. inversion HE; subst. cbn [fold_left].
  destruct (put_ok h names xs e HB) as [P1 P2]; auto. rewrite IH; auto.
  - apply nth_error_ext_. intros b. now rewrite !nth_error_map.
  - eapply Forall_impl; [|eassumption]. intros e'. now apply entry_ok_put.
Qed.
(** Writer: any reachable parameter data base [stW] with one-line values, any list [vl] of variables, any boxes with any
    64-bit words, on a host with byte order [hW].  Reader: any reachable data base [stR] whose no-read list names itself,
    any variables, boxes with the same numbers of points, byte order [hR].  Then the file can be read, the iteration is the
    one written, the time is what "%g" kept of it; each parameter of the reader that was written and is not on the no-read list
    gets the value that was written and all others keep theirs; each stored variable of the reader that was
    saved gets exactly the words that were saved, in the byte order of the reader, all others keep theirs. *)
Theorem C20_round_trip_partial hW hR c0 c0' time it histW stW histR stR nr namesW xsW vl namesR xsR :
  List.length c0 = 8 -> List.length c0' = 8 ->
  prun D atof atoi fmt (pdb_init D) histW = Ok stW -> prun D atof atoi fmt (pdb_init D) histR = Ok stR ->
  (forall n v, gets_lax D stW n = Some v -> line_ok n v /\ stored fmt v = v) ->
  gets_lax D stR (S_ "checkpoint_no_read_parlist") = Some nr -> getv nr (S_ "checkpoint_no_read_parlist") = true ->
  name_ok (fmt_g time) -> int_ok it -> int_ok (Z.of_nat (List.length xsW)) ->
  NoDup namesW -> Forall name_ok namesW -> Forall (wbox_ok namesW) xsW -> Forall (fun i => i < List.length namesW) vl ->
  NoDup namesR -> Forall (box_ok namesR) xsR -> map c_nnodes xsR = map w_nnodes xsW ->
  exists f stR' xs', checkpoint_write_local D fmt_g hW c0 time it (pars stW) namesW (map (mem hW) xsW) vl = Ok f /\
    checkpoint_read D atof fmt hR c0' stR namesR xsR f = Ok (stR', atof (fmt_g time), it, xs') /\
    (forall n, gets_lax D stR' n = match gets_lax D stR n, gets_lax D stW n with
                                   | Some c, Some v => if getv nr n then Some c else Some v
                                   | c, _ => c
                                   end) /\
    map c_nnodes xs' = map c_nnodes xsR /\
    (forall b i n, nth_error namesR i = Some n ->
       (forall ws, saved namesW xsW vl b n ws -> bytes_at xs' b i = match bytes_at xsR b i with None => None | Some _ => Some (array_image hR 8 ws) end) /\
       ((forall ws, ~ saved namesW xsW vl b n ws) -> bytes_at xs' b i = bytes_at xsR b i)).
Proof.
  intros L0 L0' RW RR HV ENR GNR TG HI HNB NDW HNW HBW HVL NDR HBR SHAPE.
  pose proof (run_init D atof atoi fmt histW) as RelW. rewrite RW in RelW. destruct (spec_run fmt (pempty, 0) histW) as [sW| |]; try contradiction. cbn [same_out] in RelW.
  pose proof (run_init D atof atoi fmt histR) as RelR. rewrite RR in RelR. destruct (spec_run fmt (pempty, 0) histR) as [sR| |]; try contradiction. cbn [same_out] in RelR.
  pose proof RelW as ((NDP & SZ & _) & LKW & _). pose proof RelR as (_ & LKR & _).
  set (es := entries namesW 0 xsW vl).
  assert (NDF : NoDup (map fst (pars stW))) by (unfold pars; rewrite map_map; exact NDP).
  assert (PO : Forall (par_ok fmt) (pars stW)).
  { apply Forall_forall. intros [n v] I. destruct (HV n v) as [((N1 & N2 & N3) & A & B & C) E].
    - rewrite <- pars_find by auto. now rewrite (in_find _ n v).
    - unfold par_ok. cbn [fst snd]. split; [split; auto|]. auto. }
  assert (LP : int_ok (Z.of_nat (List.length (pars stW)))). { unfold pars. rewrite map_length. unfold int_ok, npdbmax in *. lia. }
  rewrite LKR in ENR || rewrite <- LKR in ENR.
  set (vs := S_ "$BEGIN_variables:" ++ cNL :: flat_map show_entry es ++ S_ "$END_variables" ++ [cNL; cNL]).
  set (t := flat_map (fun p => fst p ++ S_ " = " ++ snd p ++ [cNL]) (pars stW) ++ S_ "$END_parameter_database" ++ cNL :: cNL :: vs).
  assert (FN : read_pars D atof fmt (S (List.length (cNL :: t))) stR (cNL :: t) = read_pars D atof fmt (List.length (cNL :: t)) stR t).
  { remember (List.length (cNL :: t)) as k. cbn [read_pars]. change (fscanline (cNL :: t)) with (fscanline ([] ++ cNL :: t)). rewrite fscanline_nl by (intros []). reflexivity. }
  destruct (read_pars_ok D atof fmt nr (cNL :: vs) (pars stW) stR sR (List.length (cNL :: t)) RelR ENR GNR PO) as (stR' & sR' & EP & RelR' & MR); [change (List.length t < S (List.length t)); lia|].
  change (flat_map _ (pars stW) ++ _) with t in EP.
  assert (SAME : forall b x, nth_error xsW b = Some x -> exists y, nth_error xsR b = Some y /\ c_nnodes y = w_nnodes x).
  { intros b x E. assert (Q : nth_error (map c_nnodes xsR) b = Some (w_nnodes x)) by (rewrite SHAPE; now apply map_nth_error).
    rewrite nth_error_map in Q. destruct (nth_error xsR b) as [y|]; [|discriminate]. injection Q as Q. now exists y. }
  assert (EO : Forall (entry_ok xsR) es).
  { apply Forall_forall. intros [[b n] ws] I. apply in_entries in I. destruct I as (k & -> & x & j & EX & IV & EN & EV). cbn [Nat.add].
    rewrite Forall_forall in HNW, HBW. destruct (HNW n (nth_error_In _ _ EN)) as (T1 & T2 & T3). destruct (HBW x (nth_error_In _ _ EX)) as (_ & W2 & W3).
    destruct (SAME k x EX) as (y & EY & NY). split; [split; auto|]. split; auto. exists y. rewrite (W3 j ws EV). repeat split; auto.
    - assert (Q : k < List.length xsW) by (apply nth_error_Some; congruence). pose proof (pr_d_len (Z.of_nat k)) as P. unfold int_ok, SIZE in *. lia.
    - pose proof (pr_d_len _ W2). unfold SIZE. lia. }
  pose proof (read_all hR c0' namesR (S_ "$END_variables" ++ [cNL; cNL]) L0' eq_refl es xsR (S (List.length (cNL :: flat_map show_entry es ++ S_ "$END_variables" ++ [cNL; cNL]))) HBR EO) as RV.
  assert (LE : List.length es < S (List.length (cNL :: flat_map show_entry es ++ S_ "$END_variables" ++ [cNL; cNL]))).
  { cbn [List.length]. rewrite app_length. assert (Q : List.length es <= List.length (flat_map show_entry es)); [|lia]. clear. induction es as [|[[b n] ws] es IH]; cbn [flat_map List.length]; auto.
    rewrite app_length. unfold show_entry at 1. rewrite app_length. change (List.length (S_ "$variable = ")) with 12. lia. }
  specialize (RV LE).
  eexists _, stR', (fold_left (put hR namesR) es xsR). split; [|split; [|split; [|split]]].
  - unfold checkpoint_write_local. rewrite put_boxes_ok by auto. cbn [rbind]. reflexivity.
  - unfold checkpoint_read. rewrite map_length. fold es. fold vs. rewrite read_head; auto.
    + cbv zeta. fold t. rewrite FN, EP. cbn [rbind fst snd]. unfold read_Vars, vs.
      rewrite (fgotonext_hit _ _ (cNL :: flat_map show_entry es ++ S_ "$END_variables" ++ [cNL; cNL])) by reflexivity. cbn [rbind]. rewrite RV. reflexivity.
    + destruct TG as (A & B & C). split; [split; auto|auto].
    + unfold int_ok in *. lia.
  - intros n. change (gets_lax D stR' n) with (lookup D stR' n). change (gets_lax D stR n) with (lookup D stR n). pose proof RelR' as (_ & LK' & _). rewrite LK', MR, LKR.
    rewrite (fold_rd_get nr) by auto. rewrite <- (pars_find stW n) by auto. destruct (fst sR n); auto. destruct (find _ (pars stW)); auto.
  - now apply put_shape.
  - intros b i n EN. destruct (get_fold hR namesR b i n NDR EN es xsR) as [G1 G2].
    + intros ws ws' I I'. apply in_entries in I. apply in_entries in I'. destruct I as (k & -> & I). destruct I' as (k' & E & I'). cbn in E. subst k'. exact (saved_unique namesW xsW vl k n ws ws' NDW I I').
    + split.
      * intros ws SV. apply G1. apply in_entries. exists b. auto.
      * intros NO. apply G2. intros ws I. apply in_entries in I. destruct I as (k & -> & I). exact (NO ws I).
Qed.
End CK.
Print Assumptions C20_round_trip_partial.

(** Non-vacuity: the words of x are the bytes of the text "$variable = y : " and of "$END_variables\n\n". *)
Definition ex_word (s : string) : Z := fold_right (fun c a => (zof c + 256 * a)%Z) 0%Z (list_ascii_of_string s).
Definition ex_hist (a b nr : string) : list pop :=
  [AddPar (S_ "physics") (S_ a) []; AddPar (S_ "outdir") (S_ b) []; AddPar (S_ "checkpoint_no_read_parlist") (S_ nr) []].
Definition ex_id (s : str) : str := s.
Definition ex_db (a b nr : string) : pdb_state Z := match prun Z atoi atoi ex_id (pdb_init Z) (ex_hist a b nr) with Ok st => st | _ => pdb_init Z end.
Definition ex_names : list str := [S_ "x"; S_ "y"; S_ "z"].
Definition ex_W : list wbox := [{| w_nnodes := 2; w_v := [Some [ex_word "$variabl"; ex_word "e = y : "]; None; Some [3; 4]%Z] |};
                                {| w_nnodes := 2; w_v := [Some [ex_word "$END_var"; ex_word "ables  "]; Some [5; 6]%Z; None] |}].
Definition ex_R : list cbox := map (mem false) [{| w_nnodes := 2; w_v := [Some [0; 0]; Some [7; 7]; None]%Z |}; {| w_nnodes := 2; w_v := [Some [0; 0]; Some [0; 0]; None]%Z |}].
Example C20_example :
  (do f <- checkpoint_write_local Z pr_d true (repeat 0%Z 8) 5%Z 12%Z (pars Z (ex_db "a b = c" "one" "outdir")) ex_names (map (mem true) ex_W) [0; 1; 2];
   do q <- checkpoint_read Z atoi ex_id false (repeat 0%Z 8) (ex_db "x" "two" "outdir checkpoint_no_read_parlist") [S_ "x"; S_ "y"; S_ "q"] ex_R f;
   let '(st, t, it, xs) := q in Ok (gets_lax Z st (S_ "physics"), gets_lax Z st (S_ "outdir"), t, it, map c_v xs))
  = Ok (Some (S_ "a b = c"), Some (S_ "two"), 5%Z, 12%Z,
        map c_v (map (mem false) [{| w_nnodes := 2; w_v := [Some [ex_word "$variabl"; ex_word "e = y : "]; Some [7; 7]%Z; None] |};
                                  {| w_nnodes := 2; w_v := [Some [ex_word "$END_var"; ex_word "ables  "]; Some [5; 6]%Z; None] |}])).
Proof. vm_compute. reflexivity. Qed.
Example C20_hypotheses :
  prun Z atoi atoi ex_id (pdb_init Z) (ex_hist "a b = c" "one" "outdir") = Ok (ex_db "a b = c" "one" "outdir") /\
  (forall n v, gets_lax Z (ex_db "a b = c" "one" "outdir") n = Some v -> line_ok n v /\ stored ex_id v = v) /\
  gets_lax Z (ex_db "x" "two" "outdir checkpoint_no_read_parlist") (S_ "checkpoint_no_read_parlist") = Some (S_ "outdir checkpoint_no_read_parlist") /\
  getv (S_ "outdir checkpoint_no_read_parlist") (S_ "checkpoint_no_read_parlist") = true /\
  name_ok (pr_d 5) /\ NoDup ex_names /\ Forall name_ok ex_names /\ Forall (wbox_ok ex_names) ex_W /\ Forall (box_ok [S_ "x"; S_ "y"; S_ "q"]) ex_R /\
  map c_nnodes ex_R = map w_nnodes ex_W.
Proof.
  assert (NO : forall n, n <> [] -> forallb (fun c => negb (isspace c) && negb (ceq c NUL)) n = true -> (Z.of_nat (List.length n) < 10000)%Z -> name_ok n).
  { intros n A B C. split; [auto|split; [|auto]]. apply Forall_forall. intros c I. rewrite forallb_forall in B. specialize (B c I). apply andb_true_iff in B. destruct B as [B1 B2].
    split; [now destruct (isspace c)|]. intros ->. discriminate. }
  split; [vm_compute; reflexivity|]. split.
  { intros n v. rewrite <- (pars_find Z atoi ex_id); [|vm_compute; repeat constructor; cbn; intuition discriminate].
    set (l := pars Z (ex_db "a b = c" "one" "outdir")). vm_compute in l. unfold l. cbn [find fst]. 
    assert (LN : forall m u, str_eqb m n = true -> Some u = Some v -> name_ok m -> forallb (fun c => negb (ceq c cEQ)) m = true -> forallb (fun c => negb (ceq c cNL)) u = true ->
                 (Z.of_nat (List.length m + 3 + List.length u) < 10000)%Z -> is_pi_word u = false -> line_ok n v /\ stored ex_id v = v).
    { intros m u E [= <-] A B C F G. apply str_eqb_eq in E. subst m. split.
      - split; [auto|]. split; [|split; [|auto]]; intros I; [rewrite forallb_forall in B; specialize (B _ I)|rewrite forallb_forall in C; specialize (C _ I)]; discriminate.
      - unfold stored. destruct (in_dec _ _ _); reflexivity. }
    repeat (match goal with |- context [str_eqb ?m n] => destruct (str_eqb m n) eqn:? end;
      [intros E; eapply LN; [eassumption|exact E|apply NO; [discriminate|reflexivity|reflexivity]|reflexivity|reflexivity|reflexivity|reflexivity]|]).
    discriminate. }
  split; [vm_compute; reflexivity|]. split; [vm_compute; reflexivity|]. split; [apply NO; [discriminate|reflexivity|reflexivity]|].
  split; [repeat constructor; cbn; intuition discriminate|]. split; [repeat constructor; try discriminate; intros E; discriminate E|].
  split; [|split; [|reflexivity]].
  - repeat constructor; unfold int_ok; cbn; try lia; intros [|[|[|i]]] ws; cbn; intros E; try discriminate E; try (injection E as <-; reflexivity); destruct i; discriminate E.
  - repeat constructor.
Qed.
(** A value that contains a newline is cut at the newline. *)
Theorem C20_newline_refuted :
  exists v, (do f <- checkpoint_write_local Z pr_d true (repeat 0%Z 8) 5%Z 12%Z [(S_ "physics", v)] ex_names [] [];
   do q <- checkpoint_read Z atoi ex_id true (repeat 0%Z 8) (ex_db "x" "two" "outdir checkpoint_no_read_parlist") ex_names [] f;
   let '(st, t, it, xs) := q in Ok (gets_lax Z st (S_ "physics"))) = Ok (Some (S_ "a")) /\ v <> S_ "a".
Proof. exists (S_ "a" ++ [cNL] ++ S_ "b"). split; [vm_compute; reflexivity|discriminate]. Qed.
Print Assumptions C20_newline_refuted.
