(** Proofs about parse_parameter_file (C01). *)
From Verif Require Import Base Params_model Params_spec.

Local Ltac inv H := inversion H; subst; clear H.

Lemma isspace_blank c : isspace c = true <-> blank c.
Proof.
  unfold isspace, blank; simpl. rewrite !orb_true_iff.
  unfold ceq; rewrite !Ascii.eqb_eq. unfold cSP, cNL. intuition congruence.
Qed.

Lemma plain_facts c : plain c ->
  isspace c = false /\ ceq c cHASH = false /\ ceq c cEQ = false /\ ceq c cQUOTE = false
  /\ ceq c NUL = false /\ ceq c cSP = false /\ is_sep c = false.
Proof.
  intros [H1 H2].
  assert (E : isspace c = false).
  { destruct (isspace c) eqn:E; auto. apply isspace_blank in E. contradiction. }
  simpl in H2. unfold cHASH, cEQ, cQUOTE, NUL, cSP, is_sep, cHASH, cEQ, ceq.
  assert (c <> "#"%char /\ c <> "="%char /\ c <> """"%char /\ c <> Ascii.zero /\ c <> " "%char).
  { repeat split; intros ->; (apply H2; simpl; solve [intuition congruence]) || (apply H1; left; reflexivity). }
  repeat rewrite <- Ascii.eqb_neq in H. destruct H as (A & B & C & F & G).
  rewrite A, B, C, F, G. repeat split; auto.
Qed.

Definition spaces (s : str) : Prop := Forall (fun c => isspace c = true) s.

Lemma space_facts c : isspace c = true -> ceq c cHASH = false /\ ceq c cQUOTE = false /\ ceq c NUL = false.
Proof.
  rewrite isspace_blank; unfold blank; simpl; intros H.
  repeat destruct H as [<-|H]; try contradiction; vm_compute; auto.
Qed.

(* ---- cstr ---- *)
Definition nonul (s : str) : Prop := Forall (fun c => ceq c NUL = false) s.
Lemma cstr_nonul s : nonul s -> cstr s = s.
Proof. induction 1; simpl; auto. rewrite H, IHForall; auto. Qed.

(* ---- whiteout ---- *)
(** [closed x y]: whiteout turns x into y and ends outside comments. *)
Definition closed (x y : str) : Prop := forall r, whiteout false (x ++ r) = y ++ whiteout false r.
Lemma closed_nil : closed [] [].
Proof. intros r; reflexivity. Qed.
Lemma closed_app x y x' y' : closed x y -> closed x' y' -> closed (x ++ x') (y ++ y').
Proof. intros H H' r. rewrite <- !app_assoc, H, H'. auto. Qed.
Lemma closed_plain w : Forall plain w -> closed w w.
Proof.
  induction 1 as [|c w Hc _ IH]; intros r; simpl; auto.
  apply plain_facts in Hc as (_ & -> & _ & -> & _). now rewrite IH.
Qed.
Lemma closed_eq : closed [cEQ] [cEQ].
Proof. intros r; reflexivity. Qed.
Lemma whiteout_comment t r :
  Forall (fun c => c <> "010"%char /\ c <> "000"%char) t ->
  whiteout true (t ++ r) = repeat cSP (List.length t) ++ whiteout true r.
Proof.
  induction 1 as [|c t [Hc _] _ IH]; simpl; auto.
  destruct (ceq_spec c cNL); [contradiction|]. now rewrite IH.
Qed.
Lemma spaces_repeat n : spaces (repeat cSP n).
Proof. induction n; simpl; constructor; auto. Qed.
Lemma closed_gapitem g : gapitem_ok g -> exists y, closed (show_gapitem g) y /\ spaces y /\ y <> [].
Proof.
  destruct g as [c| |t]; simpl; intros H.
  - exists [c]. apply isspace_blank in H. repeat split.
    + intros r; simpl. apply space_facts in H as (-> & -> & _). auto.
    + now constructor.
    + discriminate.
  - exists [cSP]. repeat split; try discriminate. constructor; auto.
  - exists (cSP :: repeat cSP (List.length t) ++ [cNL]). repeat split; try discriminate.
    + intros r. simpl. rewrite <- app_assoc. rewrite whiteout_comment by auto.
      simpl. rewrite <- app_assoc. reflexivity.
    + constructor; auto. apply Forall_app; split; [apply spaces_repeat|constructor; auto].
Qed.
Lemma closed_gap g : gap_ok g -> exists y, closed (show_gap g) y /\ spaces y /\ (y = [] <-> g = []).
Proof.
  induction 1 as [|i g Hi _ (y & C & Sp & E)].
  - exists []. repeat split; auto using closed_nil. constructor.
  - destruct (closed_gapitem i Hi) as (z & Cz & Sz & Nz).
    exists (z ++ y). unfold show_gap; simpl. repeat split.
    + now apply closed_app.
    + now apply Forall_app.
    + intros K. apply app_eq_nil in K as [K _]. contradiction.
    + discriminate.
Qed.

(* ---- collapse ---- *)
Lemma collapse_spaces s prev r : spaces s ->
  collapse prev (s ++ r) =
  match s with [] => collapse prev r
  | _ => if isspace prev then collapse prev r else cSP :: collapse cSP r end.
Proof.
  intros H. revert prev. induction H as [|c s Hc _ IH]; intros prev; simpl; auto.
  rewrite Hc; simpl. destruct (isspace prev) eqn:E; simpl.
  - rewrite IH. destruct s; rewrite ?E; auto.
  - rewrite IH. destruct s; auto.
Qed.
Lemma last_cons_d {A} (a : A) l d : last (a :: l) d = last l a.
Proof.
  revert a d; induction l as [|b l IH]; intros a d; auto.
  change (last (b :: l) d = last (b :: l) a). now rewrite !IH.
Qed.
Lemma collapse_plain1 c r prev : plain c -> collapse prev (c :: r) = c :: collapse c r.
Proof. intros H. simpl. now rewrite (proj1 (plain_facts c H)). Qed.
Lemma collapse_plain w c r prev : Forall plain (c :: w) ->
  collapse prev (c :: w ++ r) = c :: w ++ collapse (last w c) r.
Proof.
  revert c prev. induction w as [|d w IH]; intros c prev H; inv H; rewrite collapse_plain1 by auto.
  - reflexivity.
  - rewrite <- app_comm_cons, (IH d c H3). rewrite <- app_comm_cons. f_equal. f_equal. f_equal.
    symmetry. exact (f_equal (fun p => collapse p r) (last_cons_d d w c)).
Qed.

Lemma last_plain w c : Forall plain (c :: w) -> isspace (last w c) = false.
Proof.
  revert c; induction w as [|d w IH]; intros c H; inv H; [apply (plain_facts c H2)|].
  rewrite last_cons_d. now apply IH.
Qed.

Definition sp (b : bool) : str := if b then [cSP] else [].
Definition nonempty {A} (l : list A) : bool := match l with [] => false | _ => true end.

(** The word part after collapsing. *)
Definition nf_words (l : list (gap * str)) : str :=
  match l with
  | [] => []
  | (g, w) :: r => sp (nonempty g) ++ join_sp (w :: map snd r)
  end.
Definition nf_body (a : asg) : str :=
  a_name a ++ sp (nonempty (a_eq a)) ++ cEQ :: nf_words (a_words a).
Definition nf_asg (a : asg) : str := cSP :: nf_body a.

Lemma join_sp_cons w r : join_sp (w :: r) = w ++ concat (map (cons cSP) r).
Proof.
  revert w; induction r as [|v r IH]; intros w.
  - simpl. now rewrite app_nil_r.
  - change (join_sp (w :: v :: r)) with (w ++ cSP :: join_sp (v :: r)). rewrite IH. reflexivity.
Qed.

Lemma nf_words_cons g w l : nf_words ((g, w) :: l) =
  sp (nonempty g) ++ w ++ concat (map (cons cSP) (map snd l)).
Proof. unfold nf_words. now rewrite join_sp_cons. Qed.

(** Whited text of the words. *)
Lemma collapse_more_words l : 
  Forall (fun gw => gap_ok (fst gw) /\ word (snd gw)) l ->
  Forall (fun gw => fst gw <> []) l ->
  exists y, closed (concat (map show_word l)) y /\
    forall prev r, isspace prev = false ->
      exists prev', isspace prev' = false /\
      collapse prev (y ++ r) = concat (map (cons cSP) (map snd l)) ++ collapse prev' r.
Proof.
  induction l as [|[g w] l IH]; intros H1 H2; inv H1; inv H2.
  - exists []. split; [apply closed_nil|]. intros prev r Hp. exists prev. auto.
  - simpl in *. destruct H3 as [Hg [Hw Pw]]. destruct (IH H4 H5) as (y & C & K).
    destruct (closed_gap g Hg) as (z & Cz & Sz & Ez).
    exists ((z ++ w) ++ y). split.
    + apply closed_app; auto. unfold show_word; simpl. apply closed_app; auto using closed_plain.
    + intros prev r Hp. rewrite <- !app_assoc.
      rewrite collapse_spaces by auto.
      destruct z; [destruct (H1 (proj1 Ez eq_refl))|].
      rewrite Hp. destruct w as [|c w]; [contradiction|].
      rewrite <- app_comm_cons, collapse_plain by auto.
      destruct (K (last w c) r (last_plain _ _ Pw)) as (p' & Hp' & E).
      exists p'; split; auto. rewrite E. simpl. now rewrite <- app_assoc.
Qed.

Lemma collapse_words l : words_ok l ->
  exists y, closed (concat (map show_word l)) y /\
    forall r,
      exists prev', isspace prev' = false /\
      collapse cEQ (y ++ r) = nf_words l ++ collapse prev' r.
Proof.
  intros [H1 H2]. destruct l as [|[g w] l].
  - exists []. split; [apply closed_nil|]. intros r. exists cEQ; auto.
  - inv H1. simpl in H2. destruct H3 as [Hg [Hw Pw]]; simpl in Hg, Hw, Pw.
    destruct (collapse_more_words l H4 H2) as (y & C & K).
    destruct (closed_gap g Hg) as (z & Cz & Sz & Ez).
    exists ((z ++ w) ++ y). split.
    + apply closed_app; auto. unfold show_word; simpl. apply closed_app; auto using closed_plain.
    + intros r. rewrite <- !app_assoc.
      rewrite collapse_spaces by auto.
      destruct w as [|c w]; [contradiction|].
      destruct (K (last w c) r (last_plain _ _ Pw)) as (p' & Hp' & E).
      exists p'; split; auto. rewrite nf_words_cons.
      destruct z as [|z0 z].
      * rewrite (proj1 Ez eq_refl). simpl (sp _ ++ _). rewrite <- app_comm_cons, collapse_plain by auto.
        rewrite E. cbn. rewrite <- !app_assoc. reflexivity.
      * destruct g as [|g0 g]; [pose proof (proj2 Ez eq_refl); discriminate|].
        change (isspace cEQ) with false. simpl (sp _).
        rewrite <- app_comm_cons, collapse_plain by auto.
        rewrite E. cbn. rewrite <- !app_assoc. reflexivity.
Qed.

(** One assignment; [prev] is blank only for the first one. *)
Lemma collapse_asg a : asg_ok a ->
  exists y, closed (show_asg a) y /\
    forall prev r, (isspace prev = true \/ a_lead a <> []) ->
      exists prev', isspace prev' = false /\
      collapse prev (y ++ r) =
        (if isspace prev then nf_body a else nf_asg a) ++ collapse prev' r.
Proof.
  intros (Hl & [Nn Pn] & Hq & Hw).
  destruct (closed_gap _ Hl) as (y1 & C1 & S1 & E1).
  destruct (closed_gap _ Hq) as (y2 & C2 & S2 & E2).
  destruct (collapse_words _ Hw) as (y3 & C3 & K3).
  exists (y1 ++ a_name a ++ y2 ++ [cEQ] ++ y3). split.
  { unfold show_asg. repeat apply closed_app; auto using closed_plain.
    change (closed ([cEQ] ++ concat (map show_word (a_words a))) ([cEQ] ++ y3)).
    apply closed_app; auto using closed_eq. }
  intros prev r Hp. destruct (K3 r) as (p' & Hp' & E). exists p'; split; auto.
  rewrite <- !app_assoc, collapse_spaces by auto.
  unfold nf_asg, nf_body.
  destruct (a_name a) as [|c w]; [contradiction|].
  assert (T : collapse (last w c) (y2 ++ cEQ :: y3 ++ r)
     = sp (nonempty (a_eq a)) ++ cEQ :: nf_words (a_words a) ++ collapse p' r).
  { rewrite collapse_spaces by auto. rewrite last_plain by auto.
    destruct y2 as [|s0 y2].
    - rewrite (proj1 E2 eq_refl). simpl. now rewrite E.
    - destruct (a_eq a) as [|q0 q]; [pose proof (proj2 E2 eq_refl); discriminate|].
      simpl. now rewrite E. }
  assert (Q : forall pv, collapse pv ((c :: w) ++ y2 ++ [cEQ] ++ y3 ++ r)
     = ((c :: w) ++ sp (nonempty (a_eq a)) ++ cEQ :: nf_words (a_words a)) ++ collapse p' r).
  { intros pv. rewrite <- app_comm_cons, collapse_plain by auto. change ([cEQ] ++ y3 ++ r) with (cEQ :: y3 ++ r).
    rewrite T. cbn. now rewrite <- !app_assoc. }
  destruct y1 as [|s0 y1].
  - destruct (isspace prev) eqn:E0.
    + apply Q.
    + destruct Hp as [Hp|Hp]; [discriminate|]. destruct Hp. now apply E1.
  - destruct (isspace prev) eqn:E0.
    + apply Q.
    + rewrite Q. reflexivity.
Qed.

Lemma collapse_more_asgs l : Forall asg_ok l -> Forall (fun a => a_lead a <> []) l ->
  exists y, closed (concat (map show_asg l)) y /\
    forall prev r, isspace prev = false ->
      exists prev', isspace prev' = false /\
      collapse prev (y ++ r) = concat (map nf_asg l) ++ collapse prev' r.
Proof.
  induction l as [|a l IH]; intros H1 H2; inv H1; inv H2.
  - exists []. split; [apply closed_nil|]. intros prev r Hp; exists prev; auto.
  - destruct (IH H4 H5) as (y & C & K). destruct (collapse_asg a H3) as (z & Cz & Kz).
    exists (z ++ y). split; [apply closed_app; auto|].
    intros prev r Hp. rewrite <- app_assoc.
    destruct (Kz prev (y ++ r)) as (p1 & Hp1 & E1); auto.
    destruct (K p1 r Hp1) as (p2 & Hp2 & E2).
    exists p2; split; auto. rewrite E1, Hp, E2. simpl. now rewrite <- app_assoc.
Qed.

Lemma whiteout_open t : Forall (fun c => c <> "010"%char /\ c <> "000"%char) t ->
  spaces (whiteout false (("#"%char :: t) ++ [cSP])).
Proof.
  intros H. simpl. constructor; auto. rewrite whiteout_comment by auto.
  apply Forall_app; split; [apply spaces_repeat|]. simpl. constructor; auto.
Qed.

Lemma collapsed_form f : file_ok f ->
  collapse_all (whiteout false (cSP :: show_file f ++ [cSP])) =
  match f_asgs f with [] => [cSP] | _ => concat (map nf_asg (f_asgs f)) ++ [cSP] end.
Proof.
  intros (H1 & H2 & H3 & H4).
  destruct (closed_gap _ H3) as (yt & Ct & St & Et).
  unfold show_file. rewrite <- !app_assoc.
  set (tailtxt := match f_open f with Some t => "#"%char :: t | None => [] end ++ [cSP]).
  assert (Tl : spaces (whiteout false tailtxt) /\ whiteout false tailtxt <> []).
  { unfold tailtxt. destruct (f_open f) as [t|].
    - split; [now apply whiteout_open|]. simpl. discriminate.
    - split; [simpl; constructor; auto|discriminate]. }
  destruct Tl as [Tl Tn].
  change (whiteout false (cSP :: concat (map show_asg (f_asgs f)) ++ show_gap (f_tail f) ++ tailtxt))
    with (cSP :: whiteout false (concat (map show_asg (f_asgs f)) ++ show_gap (f_tail f) ++ tailtxt)).
  unfold collapse_all.
  destruct (f_asgs f) as [|a l].
  - simpl. rewrite Ct. rewrite collapse_spaces by auto.
    replace (match yt with [] => collapse cSP (whiteout false tailtxt)
             | _ :: _ => if isspace cSP then collapse cSP (whiteout false tailtxt)
                         else cSP :: collapse cSP (whiteout false tailtxt) end)
      with (collapse cSP (whiteout false tailtxt)) by (destruct yt; auto).
    rewrite <- (app_nil_r (whiteout false tailtxt)), collapse_spaces by auto.
    destruct (whiteout false tailtxt); auto.
  - inv H1. simpl in H2.
    destruct (collapse_more_asgs l H6 H2) as (y & C & K).
    destruct (collapse_asg a H5) as (z & Cz & Kz).
    change (concat (map show_asg (a :: l))) with (show_asg a ++ concat (map show_asg l)).
    rewrite <- app_assoc, Cz, C, Ct.
    destruct (Kz cSP (y ++ yt ++ whiteout false tailtxt)) as (p1 & Hp1 & E1); [left; auto|].
    rewrite E1. change (isspace cSP) with true. cbv iota.
    destruct (K p1 (yt ++ whiteout false tailtxt) Hp1) as (p2 & Hp2 & E2). rewrite E2.
    rewrite app_assoc_reverse || idtac.
    assert (L : collapse p2 (yt ++ whiteout false tailtxt) = [cSP]).
    { rewrite <- (app_nil_r (yt ++ _)), collapse_spaces by (apply Forall_app; auto).
      rewrite Hp2. destruct yt; simpl; auto. destruct (whiteout false tailtxt); auto; contradiction. }
    rewrite L. simpl. now rewrite <- app_assoc.
Qed.

(* ---- mark ---- *)
Definition Good (l m : str) : Prop := forall jc seg, mark jc seg l = (jc :: seg) ++ m.
Definition noeq_head2 (l : str) : Prop :=
  match l with
  | [] => True
  | [c] => c <> cEQ
  | c :: d :: _ => c <> cEQ /\ d <> cEQ
  end.

Lemma ceq_ne a b : a <> b -> ceq a b = false.
Proof. unfold ceq; apply Ascii.eqb_neq. Qed.

Lemma mark_step jc seg c0 c1 c2 l : mark jc seg (c0 :: c1 :: c2 :: l) =
  if ceq c0 cSP then
    (jc :: seg) ++ (if ceq c1 cEQ || ceq c2 cEQ then mark cHASH [c1] (c2 :: l) else mark c0 [] (c1 :: c2 :: l))
  else if ceq c1 cEQ || ceq c2 cEQ then mark cHASH (seg ++ [c0; c1]) (c2 :: l)
  else mark jc (seg ++ [c0]) (c1 :: c2 :: l).
Proof. reflexivity. Qed.

Lemma good_cons c l m : Good l m -> noeq_head2 l -> Good (c :: l) (c :: m).
Proof.
  intros G H jc seg. destruct l as [|c1 [|c2 l]].
  - specialize (G jc []). simpl in G. inv G. reflexivity.
  - specialize (G jc []). simpl in G. inv G. reflexivity.
  - destruct H as [H1 H2]. rewrite mark_step. rewrite (ceq_ne _ _ H1), (ceq_ne _ _ H2). cbn [orb].
    destruct (ceq_spec c cSP) as [->|Hc].
    + rewrite (G cSP []). reflexivity.
    + rewrite (G jc (seg ++ [c])). simpl. rewrite <- app_assoc. reflexivity.
Qed.

Lemma good_name_ge2 t rest m : Good (cEQ :: rest) m ->
  forall a b, Forall plain (a :: removelast (b :: t)) -> Forall (fun c => c <> cEQ) (a :: b :: t) ->
  forall jc seg, mark jc seg (a :: b :: t ++ cEQ :: rest) = (cHASH :: seg) ++ (a :: b :: t) ++ m.
Proof.
  intros G. induction t as [|c t IH]; intros a b H1 H2 jc seg.
  - inv H1. apply plain_facts in H3 as (_ & _ & _ & _ & _ & Ha & _).
    simpl app. rewrite mark_step. rewrite Ha.
    change (ceq cEQ cEQ) with true. rewrite orb_true_r.
    rewrite G. simpl. now rewrite <- app_assoc.
  - pose proof (Forall_inv H1) as Pa. pose proof (Forall_inv_tail H1) as Pt.
    pose proof (Forall_inv_tail H2) as Q1. pose proof (Forall_inv_tail Q1) as Q2.
    pose proof (Forall_inv Q1) as Hb. pose proof (Forall_inv Q2) as Hc. simpl in Hb, Hc.
    change ((c :: t) ++ cEQ :: rest) with (c :: t ++ cEQ :: rest).
    rewrite mark_step.
    rewrite (ceq_ne _ _ Hb), (ceq_ne _ _ Hc). cbn [orb].
    destruct (plain_facts a Pa) as (_ & _ & _ & _ & _ & Ha & _). rewrite Ha.
    rewrite (IH b c Pt Q1).
    simpl. now rewrite <- app_assoc.
Qed.

Lemma forall_noeq w : Forall plain w -> Forall (fun c => c <> cEQ) w.
Proof.
  induction 1; constructor; auto. apply plain_facts in H. intros ->. destruct H as (_ & _ & H & _). discriminate.
Qed.

Lemma removelast_app_one {A} (l : list A) x : removelast (l ++ [x]) = l.
Proof. rewrite removelast_app by discriminate. simpl. apply app_nil_r. Qed.
Lemma Forall_removelast {A} (P : A -> Prop) l : Forall P l -> Forall P (removelast l).
Proof. induction 1; simpl; auto. destruct l; constructor; auto. Qed.

Lemma good_name name b rest m : word name -> Good (cEQ :: rest) m ->
  Good (cSP :: name ++ sp b ++ cEQ :: rest) (cHASH :: name ++ sp b ++ m).
Proof.
  intros [Nn Pn] G jc seg.
  destruct name as [|a name]; [contradiction|].
  destruct (name ++ sp b) as [|b0 t] eqn:E.
  - apply app_eq_nil in E as [-> Eb]. rewrite Eb. cbn [app]. rewrite mark_step.
    change (ceq cEQ cEQ) with true. rewrite orb_true_r. change (ceq cSP cSP) with true. cbv iota.
    rewrite G. reflexivity.
  - assert (E' : (a :: name) ++ sp b ++ cEQ :: rest = a :: b0 :: t ++ cEQ :: rest).
    { simpl. rewrite app_assoc, E. reflexivity. }
    assert (F : (a :: name) ++ sp b ++ m = (a :: b0 :: t) ++ m).
    { simpl. rewrite app_assoc, E. reflexivity. }
    rewrite E', F.
    assert (P1 : Forall plain (a :: removelast (b0 :: t))).
    { rewrite <- E. inv Pn. constructor; auto. destruct b; simpl.
      - now rewrite removelast_app_one.
      - rewrite app_nil_r. now apply Forall_removelast. }
    assert (P2 : Forall (fun c => c <> cEQ) (a :: b0 :: t)).
    { rewrite <- E. change (a :: name ++ sp b) with ((a :: name) ++ sp b). apply Forall_app; split.
      - now apply forall_noeq.
      - destruct b; repeat constructor; discriminate. }
    pose proof (Forall_inv P2) as Ha. pose proof (Forall_inv (Forall_inv_tail P2)) as Hb. simpl in Ha, Hb.
    rewrite mark_step. rewrite (ceq_ne _ _ Ha), (ceq_ne _ _ Hb).
    change (ceq cSP cSP) with true. cbn [orb]. cbv iota.
    change (((jc :: seg) ++ mark cSP [] (a :: b0 :: t ++ cEQ :: rest)) = (jc :: seg) ++ cHASH :: (a :: b0 :: t) ++ m).
    rewrite (good_name_ge2 t rest m G a b0 P1 P2). reflexivity.
Qed.

(** Text without '=' in front of something good. *)
Definition head_ok (l : str) : Prop :=   (* starts with a blank, then no '=' *)
  match l with c :: d :: _ => c = cSP /\ d <> cEQ | [c] => c = cSP | [] => False end.
Lemma head_ok_noeq l : head_ok l -> noeq_head2 l.
Proof.
  destruct l as [|c [|d l]]; simpl; intros H; auto; try (subst; discriminate).
  destruct H as [-> H]; split; [discriminate|auto].
Qed.
Lemma good_text x l m : Forall (fun c => c <> cEQ) x -> head_ok l -> Good l m -> Good (x ++ l) (x ++ m).
Proof.
  intros H Hl G. induction H as [|c x Hc Hx IH]; auto.
  simpl. apply good_cons; auto.
  destruct x as [|d x].
  - now apply head_ok_noeq.
  - inv Hx. destruct x as [|e x]; simpl.
    + destruct l as [|l0 l]; [destruct Hl|]. split; auto.
      destruct l; simpl in Hl; [subst; discriminate|]. destruct Hl as [-> _]; discriminate.
    + inv H2. auto.
Qed.

Lemma nf_words_noeq l : words_ok l -> Forall (fun c => c <> cEQ) (nf_words l).
Proof.
  intros [H _]. destruct l as [|[g w] l]; simpl; auto.
  inv H. destruct H2 as [_ [_ Pw]]; simpl in *.
  apply Forall_app; split; [destruct (nonempty g); repeat constructor; discriminate|].
  change (Forall (fun c => c <> cEQ) (join_sp (w :: map snd l))).
  rewrite join_sp_cons. apply Forall_app; split; [now apply forall_noeq|].
  clear Pw. induction H3 as [|[g' w'] l [_ [_ Pw]] _ IH]; simpl; auto.
  constructor; [discriminate|]. apply Forall_app; split; auto. now apply forall_noeq.
Qed.

Definition mk_asg (a : asg) : str := cHASH :: nf_body a.

Lemma nfs_head_ok l : Forall asg_ok l -> head_ok (concat (map nf_asg l) ++ [cSP]).
Proof.
  intros H. destruct H as [|a l Ha _]; simpl; auto.
  destruct Ha as (_ & [Nn Pn] & _). unfold nf_body.
  destruct (a_name a) as [|c w]; [contradiction|]. simpl. split; auto.
  inv Pn. apply plain_facts in H1. intros ->. destruct H1 as (_ & _ & H1 & _). discriminate.
Qed.

Lemma mark_nfs l : Forall asg_ok l ->
  Good (concat (map nf_asg l) ++ [cSP]) (concat (map mk_asg l) ++ [cSP]).
Proof.
  intros H. induction H as [|a l Ha Hl IH].
  - intros jc seg. reflexivity.
  - simpl. unfold nf_body.
    pose proof (nfs_head_ok l Hl) as Hh.
    destruct Ha as (_ & Hn & _ & Hw).
    pose proof (good_text _ _ _ (nf_words_noeq _ Hw) Hh IH) as G1.
    assert (G2 : Good (cEQ :: nf_words (a_words a) ++ concat (map nf_asg l) ++ [cSP])
                      (cEQ :: nf_words (a_words a) ++ concat (map mk_asg l) ++ [cSP])).
    { apply good_cons; auto.
      pose proof (nf_words_noeq _ Hw) as N.
      destruct (nf_words (a_words a)) as [|w0 [|w1 ws]]; simpl.
      - now apply head_ok_noeq.
      - inv N. destruct (concat (map nf_asg l) ++ [cSP]) as [|h0 h]; [destruct Hh|]; simpl. split; auto.
        destruct h; simpl in Hh; [subst; discriminate|]. destruct Hh as [-> _]; discriminate.
      - inv N. inv H2. auto. }
    pose proof (good_name (a_name a) (nonempty (a_eq a)) _ _ Hn G2) as G3.
    rewrite <- !app_assoc. simpl. exact G3.
Qed.

Lemma mark_all_nfs a l : Forall asg_ok (a :: l) ->
  mark_all (concat (map nf_asg (a :: l)) ++ [cSP]) = concat (map mk_asg (a :: l)) ++ [cSP].
Proof.
  intros H. pose proof (mark_nfs _ H) as G.
  (* mark_all is mark without the leading jc::seg *)
  assert (K : forall jc seg r, 2 <= List.length r ->
     mark jc seg (cSP :: r) = (jc :: seg) ++ mark_all (cSP :: r)).
  { intros jc seg [|c1 [|c2 r]] Hr; simpl in Hr; try lia. simpl.
    destruct (ceq c1 cEQ || ceq c2 cEQ); auto. }
  specialize (G NUL []). simpl concat in *. rewrite <- app_comm_cons in *.
  unfold nf_asg in G at 1. 
  change ((cSP :: nf_body a) ++ concat (map nf_asg l)) with (cSP :: (nf_body a ++ concat (map nf_asg l))) in G.
  rewrite <- app_comm_cons in G. rewrite K in G.
  - simpl app at 1 in G. inv G. exact H1.
  - inv H. destruct H2 as (_ & [Nn _] & _). unfold nf_body. destruct (a_name a); [contradiction|].
    simpl. rewrite ?app_length. simpl. lia.
Qed.

(* ---- squeeze ---- *)
Lemma squeeze_nonsp w prev r : Forall (fun c => ceq c cSP = false) w ->
  squeeze prev (w ++ r) = w ++ squeeze (last w prev) r.
Proof.
  intros H. revert prev; induction H as [|c w Hc _ IH]; intros prev; auto.
  rewrite last_cons_d. simpl. rewrite Hc. simpl. now rewrite IH.
Qed.
Lemma plain_nosp w : Forall plain w -> Forall (fun c => ceq c cSP = false) w.
Proof. induction 1; constructor; auto. apply plain_facts in H. tauto. Qed.
Lemma last_ne (d : ascii) w : w <> [] -> Forall plain w -> ceq (last w d) cEQ = false.
Proof.
  intros N H. destruct w as [|c w]; [contradiction|]. clear N. revert c H.
  induction w as [|e w IH]; intros c H; inv H.
  - apply plain_facts in H2. tauto.
  - rewrite !last_cons_d. rewrite <- (last_cons_d e w d). exact (IH e H3).
Qed.

Definition fin_asg (a : asg) : str :=
  cHASH :: a_name a ++ cEQ :: join_sp (map snd (a_words a)).

(** [tl_ok r]: r is empty, starts with '#' or is the final blank. *)
Definition sq_tail (empty_val : bool) (r : str) : str :=
  match r with [c] => if ceq c cSP && empty_val then [] else r | _ => r end.

Lemma squeeze_sp_keep prev d r : ceq prev cEQ = false -> ceq d cEQ = false ->
  squeeze prev (cSP :: d :: r) = cSP :: squeeze cSP (d :: r).
Proof.
  intros H1 H2.
  change (squeeze prev (cSP :: d :: r)) with
    (if negb (ceq cSP cSP) || (negb (ceq prev cEQ) && negb (ceq d cEQ))
     then cSP :: squeeze cSP (d :: r) else squeeze cSP (d :: r)).
  rewrite H1, H2. reflexivity.
Qed.

Lemma squeeze_words_more l prev r :
  Forall (fun gw => gap_ok (fst gw) /\ word (snd gw)) l -> ceq prev cEQ = false ->
  exists p, ceq p cEQ = false /\
  squeeze prev (concat (map (cons cSP) (map snd l)) ++ r) = concat (map (cons cSP) (map snd l)) ++ squeeze p r.
Proof.
  intros H. revert prev. induction H as [|[g w] l [_ [Nw Pw]] _ IH]; intros prev Hp.
  - exists prev; auto.
  - simpl in Nw, Pw. cbn [map snd concat]. destruct (IH (last w cSP)) as (p & Hp1 & E); [now apply last_ne|].
    exists p; split; auto.
    destruct w as [|c w]; [contradiction|].
    assert (Hc : ceq c cEQ = false) by (apply (plain_facts c (Forall_inv Pw))).
    cbn [app]. rewrite squeeze_sp_keep by auto. f_equal. rewrite <- !app_assoc.
    change (squeeze cSP ((c :: w) ++ concat (map (cons cSP) (map snd l)) ++ r)
       = (c :: w) ++ concat (map (cons cSP) (map snd l)) ++ squeeze p r).
    rewrite squeeze_nonsp by (now apply plain_nosp). now rewrite E.
Qed.

(** Squeezing the part of an assignment behind the '='. *)
Lemma squeeze_val l r : words_ok l ->
  exists p, squeeze cEQ (nf_words l ++ r) = join_sp (map snd l) ++ squeeze p r
            /\ (ceq p cEQ = true <-> l = []).
Proof.
  intros [H _]. destruct l as [|[g w] l].
  - exists cEQ. simpl. split; auto. split; auto.
  - inv H. destruct H2 as [_ [Nw Pw]]; simpl in *.
    assert (Q : squeeze cEQ ((sp (nonempty g) ++ (w ++ concat (map (cons cSP) (map snd l)))) ++ r)
       = w ++ squeeze (last w cEQ) (concat (map (cons cSP) (map snd l)) ++ r)).
    { destruct g; simpl; rewrite <- !app_assoc.
      - now rewrite squeeze_nonsp by (now apply plain_nosp).
      - rewrite squeeze_nonsp by (now apply plain_nosp).
        destruct w as [|c w]; [contradiction|]. 
        assert (L : forall d e, last (c :: w) d = last (c :: w) e).
        { intros. now rewrite !last_cons_d. }
        now rewrite (L cEQ cSP). }
    destruct (squeeze_words_more l (last w cEQ) r H3) as (p & Hp & E); [now apply last_ne|].
    exists p. split.
    + change (match map snd l with [] => w | _ :: _ => w ++ cSP :: join_sp (map snd l) end)
        with (join_sp (w :: map snd l)).
      rewrite join_sp_cons. rewrite Q, E. now rewrite app_assoc.
    + split; intros K; [congruence|discriminate].
Qed.

Lemma squeeze_asgs l prev : Forall asg_ok l ->
  exists t, (t = [] \/ t = [cSP]) /\
  squeeze prev (concat (map mk_asg l) ++ [cSP]) = concat (map fin_asg l) ++ t.
Proof.
  intros H. revert prev. induction H as [|a l Ha Hl IH]; intros prev.
  - simpl. destruct (ceq prev cEQ); simpl; eauto.
  - destruct Ha as (_ & [Nn Pn] & _ & Hw).
    destruct (squeeze_val (a_words a) (concat (map mk_asg l) ++ [cSP]) Hw) as (p & E & Hp).
    destruct (IH p) as (t & Ht & Et).
    exists t. split; auto. simpl. f_equal.
    unfold nf_body. rewrite <- !app_assoc.
    rewrite squeeze_nonsp by (now apply plain_nosp).
    f_equal. destruct (nonempty (a_eq a)).
    + simpl app at 1. cbn [squeeze]. change (ceq cSP cSP) with true.
      change (ceq cEQ cEQ) with true. rewrite andb_false_r. cbn [negb orb].
      change (ceq cEQ cSP) with false. cbn [negb orb].
      simpl. f_equal. rewrite E, Et. now rewrite <- ?app_assoc.
    + simpl. f_equal. rewrite E, Et. now rewrite <- ?app_assoc.
Qed.

(* ---- chop ---- *)
Lemma chop_app_sp x : chop_space (x ++ [cSP]) = x.
Proof.
  induction x as [|c x IH]; auto.
  change (chop_space ((c :: x) ++ [cSP])) with 
    (match x ++ [cSP] with [] => if ceq c cSP then [] else [c] | _ => c :: chop_space (x ++ [cSP]) end).
  rewrite IH. destruct x; auto.
Qed.
Lemma chop_id x c : ceq c cSP = false -> chop_space (x ++ [c]) = x ++ [c].
Proof.
  intros H. induction x as [|d x IH]; simpl; [now rewrite H|].
  rewrite IH. destruct x; auto.
Qed.

Lemma fin_last l : Forall asg_ok l -> l <> [] ->
  exists x c, concat (map fin_asg l) = x ++ [c] /\ ceq c cSP = false.
Proof.
  intros H N. destruct (exists_last N) as (l' & a & ->).
  rewrite map_app, concat_app. apply Forall_app in H as [_ H]. inv H.
  destruct H2 as (_ & _ & _ & [Hw _]). simpl. rewrite app_nil_r.
  unfold fin_asg.
  destruct (a_words a) as [|gw ws] using rev_ind.
  - simpl. exists (concat (map fin_asg l') ++ cHASH :: a_name a), cEQ.
    split; auto. rewrite <- app_assoc. reflexivity.
  - clear IHws. apply Forall_app in Hw as [_ Hw]. inv Hw. destruct H1 as [_ [Nw Pw]].
    destruct (exists_last Nw) as (w' & c & E).
    assert (Hc : ceq c cSP = false).
    { rewrite E in Pw. apply Forall_app in Pw as [_ Pw]. inv Pw. apply plain_facts in H1. tauto. }
    assert (exists y, join_sp (map snd (ws ++ [gw])) = y ++ [c]) as [y Ey].
    { rewrite map_app. simpl. rewrite E. destruct (map snd ws) as [|v vs].
      - simpl. eauto.
      - simpl app at 1. rewrite join_sp_cons, map_app, concat_app. simpl.
        rewrite app_nil_r. exists (v ++ concat (map (cons cSP) vs) ++ cSP :: w').
        rewrite <- !app_assoc. reflexivity. }
    rewrite Ey. exists (concat (map fin_asg l') ++ cHASH :: a_name a ++ cEQ :: y), c.
    split; auto. rewrite <- !app_assoc. simpl. rewrite <- !app_assoc. reflexivity.
Qed.

(* ---- segments ---- *)
Lemma segments_app w c r : Forall (fun x => is_sep x = false) w -> is_sep c = true ->
  segments (w ++ c :: r) = w :: segments r.
Proof.
  intros H Hc. induction H as [|x w Hx _ IH]; simpl.
  - now rewrite Hc.
  - rewrite Hx, IH. auto.
Qed.
Lemma segments_end w : Forall (fun x => is_sep x = false) w -> segments w = [w].
Proof. induction 1 as [|x w Hx _ IH]; simpl; auto. now rewrite Hx, IH. Qed.

Lemma plain_nosep w : Forall plain w -> Forall (fun x => is_sep x = false) w.
Proof. induction 1; constructor; auto. apply plain_facts in H. tauto. Qed.
Lemma join_nosep l : Forall (fun gw => gap_ok (fst gw) /\ word (snd gw)) l ->
  Forall (fun x => is_sep x = false) (join_sp (map snd l)).
Proof.
  intros H. destruct H as [|[g w] l [_ [_ Pw]] Hl]; simpl; auto.
  change (Forall (fun x => is_sep x = false) (join_sp (w :: map snd l))).
  rewrite join_sp_cons. apply Forall_app; split; [now apply plain_nosep|].
  clear Pw. induction Hl as [|[g' w'] l [_ [_ Pw]] _ IH]; simpl; auto.
  constructor; auto. apply Forall_app; split; auto. now apply plain_nosep.
Qed.

Lemma pair_up_fin a l : Forall asg_ok (a :: l) ->
  pair_up (segments (tl (concat (map fin_asg (a :: l))))) =
  Ok (map (fun a => (a_name a, join_sp (map snd (a_words a)))) (a :: l)).
Proof.
  revert a. induction l as [|b l IH]; intros a H; inv H;
    destruct H2 as (_ & [_ Pn] & _ & [Hw _]).
  - simpl. rewrite app_nil_r.
    rewrite segments_app by (auto using plain_nosep).
    rewrite segments_end by (now apply join_nosep). reflexivity.
  - specialize (IH b H3).
    change (concat (map fin_asg (a :: b :: l))) with (fin_asg a ++ concat (map fin_asg (b :: l))).
    remember (concat (map fin_asg (b :: l))) as R.
    assert (ER : R = cHASH :: tl R) by (subst R; reflexivity).
    rewrite ER. unfold fin_asg at 1. simpl tl at 1.
    rewrite <- app_assoc. rewrite <- app_comm_cons.
    rewrite segments_app by (auto using plain_nosep).
    rewrite segments_app by (auto using join_nosep).
    cbn [pair_up]. rewrite <- ER || idtac.
    change (match R with [] => [] | _ :: m => m end) with (tl R).
    rewrite IH. reflexivity.
Qed.

(* ---- NUL freeness ---- *)
Lemma nonul_plain w : Forall plain w -> nonul w.
Proof. induction 1; constructor; auto. apply plain_facts in H; tauto. Qed.
Lemma nonul_comment t : Forall (fun c => c <> "010"%char /\ c <> "000"%char) t -> nonul t.
Proof. induction 1; constructor; auto. apply ceq_ne. unfold NUL. tauto. Qed.
Lemma nonul_gap g : gap_ok g -> nonul (show_gap g).
Proof.
  induction 1 as [|i g Hi _ IH]; [constructor|]. unfold show_gap; simpl. apply Forall_app; split; auto.
  destruct i as [c| |t]; simpl in *.
  - constructor; auto. apply isspace_blank in Hi. apply space_facts in Hi; tauto.
  - repeat constructor.
  - constructor; auto. apply Forall_app; split; [now apply nonul_comment|repeat constructor].
Qed.
Lemma nonul_asg a : asg_ok a -> nonul (show_asg a).
Proof.
  intros (Hl & [_ Pn] & Hq & [Hw _]). unfold show_asg.
  apply Forall_app; split; [now apply nonul_gap|].
  apply Forall_app; split; [now apply nonul_plain|].
  apply Forall_app; split; [now apply nonul_gap|].
  constructor; auto. clear Hl Pn Hq. induction Hw as [|[g w] l [Hg [_ Pw]] _ IH]; simpl; [constructor|].
  apply Forall_app; split; auto. apply Forall_app; split; [now apply nonul_gap|now apply nonul_plain].
Qed.
Lemma nonul_file f : file_ok f -> nonul (show_file f).
Proof.
  intros (H1 & _ & H3 & H4). unfold show_file.
  apply Forall_app; split; [|apply Forall_app; split; [now apply nonul_gap|]].
  - clear -H1. induction H1 as [|a l Ha _ IH]; simpl; [constructor|].
    apply Forall_app; split; auto. now apply nonul_asg.
  - destruct (f_open f); [|constructor]. constructor; auto. now apply nonul_comment.
Qed.

Theorem parse_show f : file_ok f -> (Z.of_nat (List.length (show_file f)) <= 1000996)%Z ->
  parse_text (show_file f) = Ok (meaning f).
Proof.
  intros H L. unfold parse_text, read_buffer.
  replace (1000996 <? Z.of_nat (List.length (show_file f)))%Z with false
    by (symmetry; apply Z.ltb_ge; exact L).
  cbn [rbind].
  rewrite cstr_nonul by (constructor; auto; apply Forall_app; split;
                         [now apply nonul_file|repeat constructor]).
  rewrite collapsed_form by auto.
  unfold meaning. destruct H as (H1 & _).
  destruct (f_asgs f) as [|a l]; [reflexivity|].
  rewrite mark_all_nfs by auto.
  change (concat (map mk_asg (a :: l)) ++ [cSP]) with
    (cHASH :: (nf_body a ++ concat (map mk_asg l)) ++ [cSP]).
  pose proof (squeeze_asgs (a :: l) cSP H1) as (t & Ht & E).
  unfold squeeze_all.
  assert (E2 : cHASH :: squeeze cHASH ((nf_body a ++ concat (map mk_asg l)) ++ [cSP])
     = concat (map fin_asg (a :: l)) ++ t).
  { rewrite <- E. reflexivity. }
  rewrite E2.
  assert (E3 : chop_space (concat (map fin_asg (a :: l)) ++ t) = concat (map fin_asg (a :: l))).
  { destruct Ht as [->| ->].
    - rewrite app_nil_r. destruct (fin_last (a :: l) H1) as (x & c & Ex & Hc); [discriminate|].
      rewrite Ex. now apply chop_id.
    - apply chop_app_sp. }
  rewrite E3. pose proof (pair_up_fin a l H1) as P.
  change (concat (map fin_asg (a :: l))) with (cHASH :: tl (concat (map fin_asg (a :: l)))).
  exact P.
Qed.
