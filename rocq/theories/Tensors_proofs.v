(** Lemmas for C08: decision procedures for the specification, proved sound. *)
From Verif Require Import Base Tensors_model Tensors_spec.

Definition mem (s : str) (l : list str) : bool := existsb (str_eqb s) l.
Lemma mem_In s l : mem s l = true <-> In s l.
Proof.
  unfold mem. rewrite existsb_exists. split.
  - intros (x & H & E). apply str_eqb_eq in E. now subst.
  - intros H. exists s. split; auto. apply str_eqb_refl.
Qed.

Definition orb (g : list (nat * bool)) (s : str) : list str :=
  fold_left (fun acc pb => acc ++ map (swap_at (fst pb)) acc) g [s].
Definition closed (g : list (nat * bool)) (l : list str) : bool :=
  forallb (fun x => forallb (fun pb => mem (swap_at (fst pb) x) l) g) l.
Fixpoint nodupb (l : list str) : bool :=
  match l with [] => true | x :: r => negb (mem x r) && nodupb r end.
Lemma nodupb_ok l : nodupb l = true -> NoDup l.
Proof.
  induction l as [|x r IH]; simpl; intros H; constructor.
  - apply andb_true_iff in H as [H _]. apply negb_true_iff in H. rewrite <- mem_In, H. discriminate.
  - apply andb_true_iff in H. tauto.
Qed.

Lemma same_snoc g s x p b : same g s x -> In (p, b) g -> same g s (swap_at p x).
Proof.
  induction 1; intros Hp.
  - eapply same_swap; eauto. apply same_refl.
  - eapply same_swap; [exact H|]. auto.
Qed.
Lemma orb_sound g s c : In c (orb g s) -> same g s c.
Proof.
  unfold orb.
  assert (G : forall h acc, incl h g -> (forall x, In x acc -> same g s x) ->
     In c (fold_left (fun acc (pb : nat * bool) => acc ++ map (swap_at (fst pb)) acc) h acc) -> same g s c).
  { induction h as [|[p b] h IH]; simpl; intros acc I A H; auto.
    apply IH in H; auto. { intros x Hx. apply I. now right. }
    intros x Hx. apply in_app_or in Hx as [Hx|Hx]; auto.
    apply in_map_iff in Hx as (y & <- & Hy). apply same_snoc with (b := b); auto. apply I. now left. }
  apply G. { apply incl_refl. } intros x [<-|[]]. apply same_refl.
Qed.
Lemma orb_start g s : In s (orb g s).
Proof.
  unfold orb. assert (G : forall h acc, In s acc ->
     In s (fold_left (fun acc (pb : nat * bool) => acc ++ map (swap_at (fst pb)) acc) h acc)).
  { induction h as [|pb h IH]; simpl; intros acc H; auto. apply IH. apply in_or_app. now left. }
  apply G. now left.
Qed.
Lemma orb_complete g s c : closed g (orb g s) = true -> same g s c -> In c (orb g s).
Proof.
  intros C. assert (G : forall x, same g x c -> In x (orb g s) -> In c (orb g s)).
  { induction 1; auto. intros Hs. apply IHsame. unfold closed in C. rewrite forallb_forall in C.
    apply C in Hs. rewrite forallb_forall in Hs. apply Hs in H. now apply mem_In in H. }
  intros H. apply G with s; auto. apply orb_start.
Qed.

Definition vanishesb (g : list (nat * bool)) (s : str) : bool :=
  existsb (fun pb => negb (snd pb) && str_eqb (swap_at (fst pb) s) s) g.
Lemma vanishesb_ok g s : vanishesb g s = true <-> vanishes g s.
Proof.
  unfold vanishesb, vanishes. rewrite existsb_exists. split.
  - intros ([p b] & H & E). apply andb_true_iff in E as [E1 E2]. simpl in *.
    destruct b; try discriminate. apply str_eqb_eq in E2. eauto.
  - intros (p & H & E). exists (p, false). split; auto. simpl. apply str_eqb_eq. auto.
Qed.

Definition check_comps (T : tensor) (comps : list str) : bool :=
  let vals := all_values (letters T) in
  nodupb comps &&
  forallb (fun c => mem c vals && negb (vanishesb (symm T) c)) comps &&
  forallb (fun s => vanishesb (symm T) s ||
     (let o := orb (symm T) s in
      closed (symm T) o && (List.length (filter (fun c => mem c o) comps) =? 1))) vals.
Lemma check_comps_ok T comps : check_comps T comps = true -> components_ok T comps.
Proof.
  unfold check_comps. intros H. apply andb_true_iff in H as [H H3]. apply andb_true_iff in H as [H1 H2].
  rewrite forallb_forall in H2, H3. split; [|split].
  - now apply nodupb_ok.
  - intros c Hc. apply H2 in Hc. apply andb_true_iff in Hc as [A B]. apply mem_In in A. split; auto.
    rewrite <- vanishesb_ok. now apply negb_true_iff in B as ->.
  - intros s Hs Hv. apply H3 in Hs. apply orb_true_iff in Hs as [Hs|Hs].
    { apply vanishesb_ok in Hs. contradiction. }
    apply andb_true_iff in Hs as [C L]. apply Nat.eqb_eq in L.
    destruct (filter _ comps) as [|c [|]] eqn:F; try discriminate.
    assert (Hc : In c (filter (fun c => mem c (orb (symm T) s)) comps)) by (rewrite F; now left).
    apply filter_In in Hc as [Hc1 Hc2]. apply mem_In in Hc2. exists c. split.
    + split; auto. now apply orb_sound.
    + intros c' [I S']. apply orb_complete in S'; auto.
      assert (In c' (filter (fun c => mem c (orb (symm T) s)) comps)) as Q.
      { apply filter_In. split; auto. now apply mem_In. }
      rewrite F in Q. destruct Q as [|[]]; auto.
Qed.

Definition signs_ok (comps : list str) (sym : list Z) : Prop :=
  forall j d, j < List.length comps -> d < 3 ->
    sym_of sym j d = parity (count_dir d (nth j comps [])).
Definition check_signs (comps : list str) (sym : list Z) : bool :=
  forallb (fun j => forallb (fun d => Z.eqb (sym_of sym j d) (parity (count_dir d (nth j comps []))))
    (seq 0 3)) (seq 0 (List.length comps)).
Lemma check_signs_ok comps sym : check_signs comps sym = true -> signs_ok comps sym.
Proof.
  unfold check_signs. intros H j d Hj Hd. rewrite forallb_forall in H.
  assert (A : In j (seq 0 (List.length comps))) by (apply in_seq; lia). apply H in A.
  rewrite forallb_forall in A. assert (B : In d (seq 0 3)) by (apply in_seq; lia). apply A in B. now apply Z.eqb_eq.
Qed.

(** Strings some case compares with. *)
Definition recognised : list str := flat_map fst cases.
Lemma run_none t cs s : (forall p, In p cs -> ~ In t (fst p)) -> run_cases t cs s = Ok s.
Proof.
  induction cs as [|[ns b] cs IH]; simpl; intros H; auto.
  assert (existsb (str_eqb t) ns = false) as ->.
  { apply not_true_iff_false. intros E. apply mem_In in E. apply (H (ns, b)); auto. }
  simpl. apply IH. auto.
Qed.
Lemma til_unknown t : ~ In (lower t) recognised -> tensorindexlist t = Err.
Proof.
  intros H. unfold tensorindexlist. rewrite run_none; [reflexivity|].
  intros p Hp Ht. apply H. unfold recognised. apply in_flat_map. eauto.
Qed.

Definition til_low (t : str) : res (list str * list Z) :=
  do s <- run_cases t cases {| t_list := []; t_sym := repeat 1%Z (3 * NINDEXLIST) |};
  if t_n s =? 0 then Err else Ok (t_list s, firstn (3 * t_n s) (t_sym s)).
Lemma til_lower t : tensorindexlist t = til_low (lower t).
Proof. reflexivity. Qed.

(** The documented strings the code gets right, and those it gets wrong. *)
Definition bad_sign : str := S_ "(ab)(ij)".
Definition bad_unknown : str := S_ "qrst+qrts+rqst+rqts".
Definition check_doc (p : str * tensor) : bool :=
  let (t, T) := p in
  if str_eqb t bad_unknown then match til_low t with Err => true | _ => false end
  else match til_low t with
       | Ok (comps, sym) => check_comps T comps && (List.length sym =? 3 * List.length comps) &&
            (str_eqb t bad_sign || check_signs comps sym)
       | _ => false end.
Lemma check_all : forallb check_doc documented = true.
Proof. vm_compute. reflexivity. Qed.

Lemma til_documented t T : In (lower t, T) documented -> lower t <> bad_unknown ->
  exists comps sym, tensorindexlist t = Ok (comps, sym) /\ components_ok T comps /\
    List.length sym = 3 * List.length comps /\ (lower t <> bad_sign -> signs_ok comps sym).
Proof.
  intros H N. pose proof check_all as C. rewrite forallb_forall in C. apply C in H.
  unfold check_doc in H. rewrite (str_eqb_neq _ _ N) in H. rewrite til_lower.
  destruct (til_low (lower t)) as [[comps sym]| |]; try discriminate.
  apply andb_true_iff in H as [H Hs]. apply andb_true_iff in H as [H1 H2].
  exists comps, sym. split; [reflexivity|]. split; [now apply check_comps_ok|]. split.
  - now apply Nat.eqb_eq.
  - intros NB. rewrite (str_eqb_neq _ _ NB) in Hs. now apply check_signs_ok.
Qed.

(** Nothing but the documented strings and three spellings with a stray ')' is accepted. *)
Definition stray : list (str * tensor) := [
  (S_ "ijkl+ijlk+jikl+jilk)", {| letters := S_ "ijkl"; symm := [(0, true); (2, true)] |});
  (S_ "abij+abji+baij+baji)", {| letters := S_ "abij"; symm := [(0, true); (2, true)] |});
  (S_ "qrst+qrts+rqst+rqts)", {| letters := S_ "qrst"; symm := [(0, true); (2, true)] |})].
Lemma recognised_documented t : In t recognised -> In t (map fst documented) \/ In t (map fst stray).
Proof.
  assert (C : forallb (fun t => mem t (map fst documented) || mem t (map fst stray)) recognised = true)
    by (vm_compute; reflexivity).
  rewrite forallb_forall in C. intros H. apply C in H. apply orb_true_iff in H as [H|H]; apply mem_In in H; auto.
Qed.
