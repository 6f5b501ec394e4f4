(** Property C09: function bins. *)
From Verif Require Import Base Skeleton_model.

Section Spec.
Variable F : Type.
(** Independent specification: the log of registrations that count, i.e. those made while the
    program has not been restarted, forgetting everything at a removal. *)
Fixpoint log (r : nat) (acc : list (nat * F)) (os : list (fop F)) : list (nat * F) :=
  match os with
  | [] => acc
  | FAdd _ b f _ :: t => log r (if r =? 0 then acc ++ [(b, f)] else acc) t
  | FRemoveAll _ :: t => log r [] t
  | FRestart _ :: t => log (S r) acc t
  end.
Definition calls_of (b : nat) (l : list (nat * F)) : list F :=
  map snd (filter (fun p => fst p =? b) l).
End Spec.

Section Proofs.
Variable F : Type.
Notation todo := (todo F).

(** A chain holds the functions l followed by the sentinel. *)
Inductive holds : todo -> list F -> Prop :=
| h_nil f n : holds (Todo F f n None) []
| h_cons f n t l : holds t l -> holds (Todo F (Some f) n (Some t)) (f :: l).
Lemma holds_append t l f n : holds t l -> holds (append F t f n) (l ++ [f]).
Proof.
  induction 1; simpl.
  - constructor. constructor.
  - now constructor.
Qed.
Lemma holds_run t l : holds t l -> run_chain F t = Ok l.
Proof. induction 1; simpl; auto. now rewrite IHholds. Qed.

Definition Rel (s : fstate F) (r : nat) (acc : list (nat * F)) : Prop :=
  frestarts F s = r /\ List.length (fps F s) = NFUNCTIONS /\
  forall b, b < NFUNCTIONS ->
    match nth_error (fps F s) b with
    | None => False
    | Some None => calls_of F b acc = []
    | Some (Some t) => holds t (calls_of F b acc)
    end.
Lemma calls_snoc b acc b' f : calls_of F b (acc ++ [(b', f)]) =
  if b' =? b then calls_of F b acc ++ [f] else calls_of F b acc.
Proof.
  unfold calls_of. rewrite filter_app, map_app. simpl. destruct (b' =? b); simpl; auto. now rewrite app_nil_r.
Qed.
Lemma Rel_run os : forall s s' r acc, Rel s r acc -> frun F s os = Ok s' -> exists r', Rel s' r' (log F r acc os).
Proof.
  induction os as [|o os IH]; intros s s' r acc R H; simpl in H.
  - injection H as <-. simpl. eauto.
  - destruct (fstep F s o) as [s1| |] eqn:St; try discriminate. cbn [rbind] in H.
    destruct R as (Rr & Ln & Rb). destruct o as [b f n| |]; simpl in St; simpl log.
    + unfold AddFun in St. rewrite Rr in St. destruct r as [|r]; simpl in St.
      * destruct (nth_error (fps F s) b) as [ob|] eqn:Nb; try discriminate. injection St as <-.
        eapply IH; [|exact H]. split; [reflexivity|]. split; [simpl; now rewrite upd_length|].
        intros b' Lb'. simpl. rewrite calls_snoc. destruct (Nat.eq_dec b b') as [<-|NE].
        -- rewrite Nat.eqb_refl. rewrite nth_error_upd_eq by (now rewrite Ln).
           specialize (Rb b Lb'). rewrite Nb in Rb. destruct ob as [t|].
           ++ now apply holds_append.
           ++ rewrite Rb. simpl. constructor. constructor.
        -- replace (b =? b') with false by (symmetry; now apply Nat.eqb_neq).
           rewrite nth_error_upd_ne by auto. apply Rb; auto.
      * injection St as <-. eapply IH; [|exact H]. split; auto.
    + injection St as <-. eapply IH; [|exact H]. split; auto. split; [apply repeat_length|].
      intros b' Lb'. unfold remove_all_Funs. cbn [fps].
      destruct (nth_error (repeat None NFUNCTIONS) b') as [x|] eqn:Nx.
      * apply nth_error_In, repeat_spec in Nx. now subst.
      * apply nth_error_None in Nx. rewrite repeat_length in Nx. lia.
    + injection St as <-. eapply IH; [|exact H]. split; simpl; auto.
Qed.
Lemma Rel_init : Rel (finit F) 0 [].
Proof.
  split; auto. split; [apply repeat_length|]. intros b Lb. unfold finit. cbn [fps].
  destruct (nth_error (repeat None NFUNCTIONS) b) as [x|] eqn:Nx.
  - apply nth_error_In, repeat_spec in Nx. now subst.
  - apply nth_error_None in Nx. rewrite repeat_length in Nx. lia.
Qed.
Lemma no_ub os : forall s r acc, Rel s r acc ->
  Forall (fun o => match o with FAdd _ b _ _ => b < NFUNCTIONS | _ => True end) os ->
  exists s', frun F s os = Ok s'.
Proof.
  induction os as [|o os IH]; intros s r acc R V; simpl; eauto.
  inversion V; subst. destruct (fstep F s o) as [s1| |] eqn:St.
  - cbn [rbind]. destruct (Rel_run [o] s s1 r acc R) as [r' R']. { simpl. now rewrite St. } eauto.
  - destruct o; simpl in St; try discriminate. unfold AddFun in St.
    destruct (0 <? frestarts F s); try discriminate. destruct (nth_error _ _); discriminate.
  - destruct o; simpl in St; try discriminate. unfold AddFun in St.
    destruct (0 <? frestarts F s); try discriminate. destruct R as (_ & Ln & _).
    destruct (nth_error (fps F s) step) eqn:Nb; try discriminate. apply nth_error_None in Nb. lia.
Qed.
End Proofs.

(** RunFun(b) calls exactly the functions registered for b, once per registration and in the
    order of registration. *)
Theorem C09_bins : forall F (os : list (fop F)),
  Forall (fun o => match o with FAdd _ b _ _ => b < NFUNCTIONS | _ => True end) os ->
  exists s, frun F (finit F) os = Ok s /\
    forall b, b < NFUNCTIONS -> RunFun F b s = Ok (calls_of F b (log F 0 [] os)).
Proof.
  intros F os V. destruct (no_ub F os _ _ _ (Rel_init F) V) as [s H]. exists s. split; auto.
  destruct (Rel_run F os _ _ _ _ (Rel_init F) H) as (r & _ & Ln & Rb). intros b Lb. specialize (Rb b Lb).
  unfold RunFun. destruct (nth_error (fps F s) b) as [[t|]|]; try contradiction.
  - now apply holds_run.
  - now rewrite Rb.
Qed.
Print Assumptions C09_bins.
Example C09_example : exists s,
  frun nat (finit nat) [FAdd _ 3 10 []; FAdd _ 5 11 []; FAdd _ 3 12 []; FRestart _; FAdd _ 3 10 []] = Ok s /\
  RunFun nat 3 s = Ok [10; 12] /\ RunFun nat 5 s = Ok [11] /\ RunFun nat 4 s = Ok [].
Proof. eexists. split; [vm_compute; reflexivity|]. vm_compute. auto. Qed.
