From Verif Require Import Base Loops Sparse_model.

Lemma rd_ok {A} (l : list A) i d : i < List.length l -> rd l i = Ok (nth i l d).
Proof. intros H. unfold rd. now rewrite (nth_error_nth' l d H). Qed.
Lemma wr_ok {A} (l : list A) i v : i < List.length l -> wr l i v = Ok (upd l i v).
Proof. intros H. unfold wr. destruct (nth_error l i) eqn:E; auto. apply nth_error_None in E. lia. Qed.
Lemma nth_upd_eq {A} (l : list A) i v d : i < List.length l -> nth i (upd l i v) d = v.
Proof. intros H. apply nth_error_nth. now apply nth_error_upd_eq. Qed.
Lemma nth_upd_ne {A} (l : list A) i j v d : i <> j -> nth j (upd l i v) d = nth j l d.
Proof.
  intros H. destruct (lt_dec j (List.length l)) as [L|L].
  - apply nth_error_nth. rewrite nth_error_upd_ne by auto. now apply nth_error_nth'.
  - rewrite !nth_overflow; auto; rewrite ?upd_length; lia.
Qed.
Lemma upd_upd {A} (l : list A) : forall i v w, upd (upd l i v) i w = upd l i w.
Proof. induction l as [|x l IH]; intros [|i] v w; simpl; auto. now rewrite IH. Qed.
Lemma list_eq_nth {A} (d : A) (l k : list A) : List.length l = List.length k ->
  (forall i, i < List.length l -> nth i l d = nth i k d) -> l = k.
Proof. intros. eapply nth_ext; eauto. Qed.

Section S.
Context {F : Type} (zero : F) (add mul : F -> F -> F).
Local Notation line_times_vector := (line_times_vector zero add mul).
Local Notation svec := (list (nat * F)).

(** the terms of a line times x, in storage order *)
Definition rowval (line : svec) (x : list F) : F :=
  fold_left (fun s e => add s (mul (snd e) (nth (fst e) x zero))) line zero.

Lemma line_loop line x i : forall f s, i < List.length f -> Forall (fun e => fst e < List.length x) line ->
  forl line (fun e f => do xj <- rd x (fst e); do fi <- rd f i; wr f i (add fi (mul (snd e) xj))) (upd f i s)
  = Ok (upd f i (fold_left (fun s e => add s (mul (snd e) (nth (fst e) x zero))) line s)).
Proof.
  induction line as [|e line IH]; intros f s Hi HP; cbn [forl fold_left]; auto.
  inversion HP; subst. rewrite (rd_ok x (fst e) zero) by auto. cbn [rbind].
  rewrite (rd_ok _ i zero) by (rewrite upd_length; auto). cbn [rbind].
  rewrite nth_upd_eq by auto. rewrite wr_ok by (rewrite upd_length; auto). cbn [rbind]. rewrite upd_upd. now apply IH.
Qed.
Lemma line_ok line x i f : i < List.length f -> Forall (fun e => fst e < List.length x) line ->
  line_times_vector line x i f = Ok (upd f i (rowval line x)).
Proof. intros. unfold Sparse_model.line_times_vector. rewrite wr_ok by auto. cbn [rbind]. now apply line_loop. Qed.

Lemma lines_ok Aline x f : List.length Aline <= List.length f ->
  Forall (Forall (fun e => fst e < List.length x)) Aline ->
  exists f', SparseMatrixLines_times_vector zero add mul Aline x f = Ok f' /\ List.length f' = List.length f /\
    forall i, nth i f' zero = if Nat.ltb i (List.length Aline) then rowval (nth i Aline []) x else nth i f zero.
Proof.
  intros L HP. unfold SparseMatrixLines_times_vector.
  destruct (for_nat_inv (fun k f' => List.length f' = List.length f /\
      forall i, nth i f' zero = if Nat.ltb i k then rowval (nth i Aline []) x else nth i f zero)
    (fun i f => do line <- rd Aline i; line_times_vector line x i f) 0 (List.length Aline) f) as (f' & E & L' & H).
  - lia.
  - split; auto.
  - intros k s Hk [HL HN]. rewrite (rd_ok _ k []) by lia. cbn [rbind].
    rewrite line_ok; [|lia|rewrite Forall_forall in HP; apply HP, nth_In; lia].
    eexists. split; [reflexivity|]. rewrite upd_length. split; auto. intros j. destruct (Nat.eq_dec j k) as [->|N].
    + rewrite nth_upd_eq by lia. destruct (Nat.ltb_spec k (k + 1)); [auto|lia].
    + rewrite nth_upd_ne by auto. rewrite HN. destruct (Nat.ltb_spec j k), (Nat.ltb_spec j (k + 1)); auto; lia.
  - exists f'. auto.
Qed.

(** f[j] += c for a list of (j,c) *)
Definition accum (l : list (nat * F)) (f : list F) : res (list F) :=
  forl l (fun e f => do fj <- rd f (fst e); wr f (fst e) (add fj (snd e))) f.
Definition at_ (j : nat) (l : list (nat * F)) : list F := map snd (filter (fun e => Nat.eqb (fst e) j) l).
Lemma accum_ok l : forall f, Forall (fun e => fst e < List.length f) l ->
  exists f', accum l f = Ok f' /\ List.length f' = List.length f /\
    forall j, nth j f' zero = fold_left add (at_ j l) (nth j f zero).
Proof.
  unfold accum. induction l as [|e l IH]; intros f HP; cbn [forl].
  - exists f. auto.
  - inversion HP; subst. rewrite (rd_ok _ (fst e) zero) by auto. cbn [rbind]. rewrite wr_ok by auto. cbn [rbind].
    destruct (IH (upd f (fst e) (add (nth (fst e) f zero) (snd e)))) as (f' & E & L & HN). { now rewrite upd_length. }
    exists f'. rewrite upd_length in L. repeat split; auto. intros j. rewrite HN. unfold at_. cbn [filter].
    destruct (Nat.eqb_spec (fst e) j) as [<-|N]; cbn [map fold_left].
    + now rewrite nth_upd_eq.
    + now rewrite nth_upd_ne.
Qed.
Lemma accum_app l1 l2 f : accum (l1 ++ l2) f = (do f1 <- accum l1 f; accum l2 f1).
Proof. apply forl_app. Qed.

Lemma zero_ok n f : n <= List.length f ->
  exists f', zero_out zero n f = Ok f' /\ List.length f' = List.length f /\
    forall j, nth j f' zero = if Nat.ltb j n then zero else nth j f zero.
Proof.
  intros L. unfold zero_out.
  destruct (for_nat_inv (fun k f' => List.length f' = List.length f /\
      forall j, nth j f' zero = if Nat.ltb j k then zero else nth j f zero) (fun k f => wr f k zero) 0 n f) as (f' & E & L' & H).
  - lia.
  - split; auto.
  - intros k s Hk [HL HN]. rewrite wr_ok by lia. eexists. split; [reflexivity|]. rewrite upd_length. split; auto.
    intros j. destruct (Nat.eq_dec j k) as [->|N].
    + rewrite nth_upd_eq by lia. destruct (Nat.ltb_spec k (k + 1)); [auto|lia].
    + rewrite nth_upd_ne by auto. rewrite HN. destruct (Nat.ltb_spec j k), (Nat.ltb_spec j (k + 1)); auto; lia.
  - exists f'. auto.
Qed.

(** the terms of the transposed products *)
Definition terms (c : nat -> nat * F -> F) (Aline : list svec) : list (nat * F) :=
  flat_map (fun k => map (fun e => (fst e, c k e)) (nth k Aline [])) (seq 0 (List.length Aline)).
Lemma scatter_ok (c : nat -> nat * F -> F) (cx : nat -> nat * F -> F -> F) (x : list F) Aline f :
  (forall k e, c k e = cx k e (nth k x zero)) -> List.length Aline <= List.length x ->
  for_nat 0 (List.length Aline) (fun k f => do line <- rd Aline k;
    forl line (fun e f => do xk <- rd x k; do fj <- rd f (fst e); wr f (fst e) (add fj (cx k e xk))) f) f
  = accum (terms c Aline) f.
Proof.
  intros HC L. unfold for_nat, accum, terms. rewrite Nat.sub_0_r, forl_flat. apply forl_ext. intros k s Hk. apply in_seq in Hk.
  rewrite (rd_ok _ k []) by lia. cbn [rbind]. rewrite forl_map. apply forl_ext. intros e s' _.
  rewrite (rd_ok x k zero) by lia. cbn [rbind fst snd]. now rewrite HC.
Qed.
Lemma terms_pos c Aline n : Forall (Forall (fun e => fst e < n)) Aline -> Forall (fun e => fst e < n) (terms c Aline).
Proof.
  intros H. apply Forall_forall. intros p Hp. unfold terms in Hp. apply in_flat_map in Hp as (k & Hk & Hp). apply in_seq in Hk.
  apply in_map_iff in Hp as (e & <- & He). cbn. rewrite Forall_forall in H.
  assert (HF : Forall (fun e : nat * F => fst e < n) (nth k Aline [])) by (apply H, nth_In; lia).
  rewrite Forall_forall in HF. now apply HF.
Qed.
Lemma transposed_ok (c : nat -> nat * F -> F) (cx : nat -> nat * F -> F -> F) (x : list F) Aline f :
  (forall k e, c k e = cx k e (nth k x zero)) -> List.length Aline <= List.length x -> List.length Aline <= List.length f ->
  Forall (Forall (fun e => fst e < List.length f)) Aline ->
  exists f', (do f1 <- zero_out zero (List.length Aline) f;
   for_nat 0 (List.length Aline) (fun k f => do line <- rd Aline k;
    forl line (fun e f => do xk <- rd x k; do fj <- rd f (fst e); wr f (fst e) (add fj (cx k e xk))) f) f1) = Ok f' /\
  List.length f' = List.length f /\
  forall j, nth j f' zero = fold_left add (at_ j (terms c Aline)) (if Nat.ltb j (List.length Aline) then zero else nth j f zero).
Proof.
  intros HC LX LF HP. destruct (zero_ok (List.length Aline) f LF) as (f1 & -> & L1 & H1). cbn [rbind].
  rewrite (scatter_ok c cx x Aline f1 HC LX).
  destruct (accum_ok (terms c Aline) f1) as (f' & E & L' & H'). { apply terms_pos. now rewrite L1. }
  exists f'. rewrite L1 in L'. repeat split; auto. intros j. now rewrite H', H1.
Qed.

(** *** interleavings *)
Definition opos (o : op (F:=F)) : nat := match o with OZero j | OLoad j | OStore j _ => j end.
(** a thread alone, without bounds checks *)
Definition exec1 (o : op) (reg : F) (f : list F) : F * list F :=
  match o with OZero j => (reg, upd f j zero) | OLoad j => (nth j f zero, f) | OStore j c => (reg, upd f j (add reg c)) end.
Fixpoint solo (l : list op) (reg : F) (f : list F) : list F :=
  match l with [] => f | o :: r => let '(g, f') := exec1 o reg f in solo r g f' end.
Lemma exec_ok o reg f : opos o < List.length f -> exec zero add o reg f = Ok (exec1 o reg f).
Proof. destruct o as [j|j|j c]; cbn; intros H; rewrite ?(rd_ok _ _ zero) by auto; rewrite ?wr_ok by auto; auto. Qed.
Lemma exec1_length o reg f : List.length (snd (exec1 o reg f)) = List.length f.
Proof. destruct o; cbn; rewrite ?upd_length; auto. Qed.
Lemma exec1_other o reg f j : opos o <> j -> nth j (snd (exec1 o reg f)) zero = nth j f zero.
Proof. destruct o; cbn; intros; rewrite ?nth_upd_ne; auto. Qed.
Lemma exec1_agree (own : nat -> Prop) o reg f g : own (opos o) -> List.length f = List.length g -> (forall j, own j -> nth j f zero = nth j g zero) ->
  fst (exec1 o reg f) = fst (exec1 o reg g) /\ List.length (snd (exec1 o reg f)) = List.length (snd (exec1 o reg g)) /\
  forall j, own j -> nth j (snd (exec1 o reg f)) zero = nth j (snd (exec1 o reg g)) zero.
Proof.
  intros HO L A. rewrite !exec1_length. destruct o as [j|j|j c]; cbn in *; repeat split; auto; intros i Hi.
  - destruct (Nat.eq_dec j i) as [->|N]; [|rewrite !nth_upd_ne; auto].
    destruct (lt_dec i (List.length f)); [rewrite !nth_upd_eq; auto; lia|rewrite !nth_overflow; auto; rewrite ?upd_length; lia].
  - destruct (Nat.eq_dec j i) as [->|N]; [|rewrite !nth_upd_ne; auto].
    destruct (lt_dec i (List.length f)); [rewrite !nth_upd_eq; auto; lia|rewrite !nth_overflow; auto; rewrite ?upd_length; lia].
Qed.
Lemma solo_agree (own : nat -> Prop) l : forall reg f g, Forall (fun o => own (opos o)) l -> List.length f = List.length g ->
  (forall j, own j -> nth j f zero = nth j g zero) -> forall j, own j -> nth j (solo l reg f) zero = nth j (solo l reg g) zero.
Proof.
  induction l as [|o l IH]; intros reg f g HO L A j Hj; cbn [solo]; auto. inversion HO; subst.
  destruct (exec1_agree own o reg f g) as (E1 & E2 & E3); auto.
  destruct (exec1 o reg f) as [r1 f1], (exec1 o reg g) as [r2 f2]. cbn in *. subst r2. now apply IH.
Qed.

(** Threads that own disjoint sets of elements do not disturb each other: whatever the schedule, no element is
    accessed out of bounds, and every element ends up with what its owner alone would put there. *)
Definition Inv (own : nat -> nat) (N : nat) (final : nat -> F) (c : list (thread (F:=F)) * list F) : Prop :=
  List.length (snd c) = N /\
  (forall t l reg, nth_error (fst c) t = Some (l, reg) -> Forall (fun o => own (opos o) = t /\ opos o < N) l) /\
  (forall j t l reg, own j = t -> nth_error (fst c) t = Some (l, reg) -> nth j (solo l reg (snd c)) zero = final j) /\
  (forall j, nth_error (fst c) (own j) = None -> nth j (snd c) zero = final j).
Lemma step_inv own N final t c : Inv own N final c -> exists c', step zero add t c = Ok c' /\ Inv own N final c' /\ List.length (fst c') = List.length (fst c) /\
  forall u, option_map (fun th => List.length (fst th)) (nth_error (fst c') u)
            = option_map (fun th => if Nat.eqb u t then List.length (fst th) - 1 else List.length (fst th)) (nth_error (fst c) u).
Proof.
  destruct c as [ts f]. intros (L & HO & HF & HX). unfold step. cbn [fst snd] in *.
  assert (IDLE : forall u, (forall th, nth_error ts t = Some th -> fst th = []) ->
     option_map (fun th => List.length (fst th)) (nth_error ts u)
            = option_map (fun th : list (op (F:=F)) * F => if Nat.eqb u t then List.length (fst th) - 1 else List.length (fst th)) (nth_error ts u)).
  { intros u H. destruct (Nat.eqb_spec u t) as [->|]; destruct (nth_error ts _) as [th|] eqn:E; auto. cbn. rewrite (H th); auto. }
  destruct (nth_error ts t) as [[[|o r] reg]|] eqn:E.
  - exists (ts, f). split; [auto|split; [split; auto|split; [auto|]]]. intros u. apply IDLE. intros th E1. now inversion E1.
  - pose proof (HO _ _ _ E) as HO1. inversion HO1 as [|? ? [Ho1 Ho2] Hr]; subst.
    rewrite exec_ok by auto. cbn [rbind].
    destruct (exec1 o reg f) as [g f'] eqn:EX. cbn [fst snd].
    assert (LT : own (opos o) < List.length ts) by (apply nth_error_Some; congruence).
    exists (upd ts (own (opos o)) (r, g), f'). split; auto.
    pose proof (exec1_length o reg f) as L1. rewrite EX in L1. cbn in L1.
    split; [|split].
    + split; [|split; [|split]]; cbn [fst snd]; auto.
      * intros u l rg Hu. destruct (Nat.eq_dec (own (opos o)) u) as [<-|NE].
        -- rewrite nth_error_upd_eq in Hu by auto. now inversion Hu; subst.
        -- rewrite nth_error_upd_ne in Hu by auto. eauto.
      * intros j u l rg Hj Hu. destruct (Nat.eq_dec (own (opos o)) u) as [<-|NE].
        -- rewrite nth_error_upd_eq in Hu by auto. inversion Hu; subst.
           specialize (HF j _ _ _ Hj E). cbn [solo] in HF. now rewrite EX in HF.
        -- rewrite nth_error_upd_ne in Hu by auto. rewrite <- (HF j u l rg Hj Hu).
           apply (solo_agree (fun j => own j = u)); auto.
           ++ eapply Forall_impl; [|exact (HO _ _ _ Hu)]. now intros ? [? ?].
           ++ intros i Hi. pose proof (exec1_other o reg f i) as HE. rewrite EX in HE. cbn in HE. apply HE. congruence.
      * intros j Hj. assert (own j <> own (opos o)). { intros EQ. rewrite EQ, nth_error_upd_eq in Hj; auto. discriminate. }
        rewrite nth_error_upd_ne in Hj by auto. rewrite <- (HX j Hj).
        pose proof (exec1_other o reg f j) as HE. rewrite EX in HE. cbn in HE. apply HE. congruence.
    + cbn. now rewrite upd_length.
    + intros u. cbn [fst]. destruct (Nat.eqb_spec u (own (opos o))) as [->|NE].
      * rewrite nth_error_upd_eq by auto. rewrite E. cbn. f_equal. lia.
      * rewrite nth_error_upd_ne by auto. reflexivity.
  - exists (ts, f). split; [auto|split; [split; auto|split; [auto|]]]. intros u. apply IDLE. intros th E1. discriminate.
Qed.
Lemma run_inv own N final sch : forall c, Inv own N final c -> exists c', run zero add sch c = Ok c' /\ Inv own N final c' /\ List.length (fst c') = List.length (fst c) /\
  forall u, option_map (fun th => List.length (fst th)) (nth_error (fst c') u)
            = option_map (fun th => List.length (fst th) - count_occ Nat.eq_dec sch u) (nth_error (fst c) u).
Proof.
  unfold run. induction sch as [|t sch IH]; intros c H; cbn [forl].
  - exists c. split; [auto|split; [auto|split; [auto|]]]. intros u. cbn. destruct (nth_error (fst c) u); cbn; auto. now rewrite Nat.sub_0_r.
  - destruct (step_inv own N final t c H) as (c1 & -> & H1 & L1 & K1). cbn [rbind].
    destruct (IH c1 H1) as (c2 & E & H2 & L2 & K2). exists c2. split; [exact E|split; [exact H2|split; [congruence|]]].
    intros u. rewrite K2. specialize (K1 u). cbn [count_occ].
    destruct (nth_error (fst c1) u) as [a|], (nth_error (fst c) u) as [b|]; cbn in *; try discriminate; auto.
      inversion K1 as [K]. rewrite K. destruct (Nat.eqb_spec u t) as [EU|NE]; destruct (Nat.eq_dec t u) as [EQ|NQ]; try congruence; f_equal; lia.
Qed.
Lemma finished_final own N final c : Inv own N final c -> finished c -> List.length (snd c) = N /\ forall j, nth j (snd c) zero = final j.
Proof.
  intros (L & HO & HF & HX) FIN. split; auto. intros j. destruct (nth_error (fst c) (own j)) as [[l reg]|] eqn:E; auto.
  unfold finished in FIN. rewrite Forall_forall in FIN. pose proof (FIN _ (nth_error_In _ _ E)) as Hl. cbn in Hl. subst l.
  apply (HF j _ _ _ eq_refl E).
Qed.
Lemma counts_finished (c c' : list (thread (F:=F)) * list F) sch :
  (forall u, option_map (fun th => List.length (fst th)) (nth_error (fst c') u)
            = option_map (fun th => List.length (fst th) - count_occ Nat.eq_dec sch u) (nth_error (fst c) u)) ->
  (forall u th, nth_error (fst c) u = Some th -> List.length (fst th) <= count_occ Nat.eq_dec sch u) -> finished c'.
Proof.
  intros K H. apply Forall_forall. intros th Hth. unfold thread in *. apply In_nth_error in Hth as (u & Hu). specialize (K u). rewrite Hu in K. cbn in K.
  destruct (nth_error (fst c) u) as [b|] eqn:E; [|discriminate]. cbn in K. specialize (H u b E). inversion K.
  destruct (fst th); auto. cbn in *. lia.
Qed.

Lemma solo_adds l : forall reg f j, Forall (fun e => fst e < List.length f) l ->
  nth j (solo (adds l) reg f) zero = fold_left add (at_ j l) (nth j f zero).
Proof.
  unfold adds. induction l as [|e l IH]; intros reg f j HP; auto. cbn [flat_map app solo exec1]. inversion HP; subst.
  rewrite IH by (now rewrite upd_length). unfold at_. cbn [filter].
  destruct (Nat.eqb_spec (fst e) j) as [<-|N]; cbn [map fold_left]; [now rewrite nth_upd_eq|now rewrite nth_upd_ne].
Qed.
Lemma adds_pos (P : nat -> Prop) (l : list (nat * F)) : Forall (fun e => P (fst e)) l -> Forall (fun o => P (opos o)) (adds l).
Proof. unfold adds. induction 1; cbn; repeat constructor; auto. Qed.
End S.
