(** Loops that sum over an array or fill an array.  Proof library; no code is modelled here. *)
From Verif Require Export Rutil Rsum Base Loops.
From Verif Require Export Sparse_model Sparse_proofs.
Local Open Scope R_scope.

Notation "v .[ i ]" := (nth i v 0) (at level 2, left associativity, format "v .[ i ]").

Lemma for_nat_empty {S : Type} lo hi (body : nat -> S -> res S) s : (hi <= lo)%nat -> for_nat lo hi body s = Ok s.
Proof. intros H. unfold for_nat. now replace (hi - lo)%nat with 0%nat by lia. Qed.

(** s += g(k) accumulated over lo <= k < hi *)
Lemma sum_loop lo hi (body : nat -> R -> res R) (g : nat -> R) s :
  (forall k s, (lo <= k < hi)%nat -> body k s = Ok (s + g k)) ->
  for_nat lo hi body s = Ok (s + Sig (hi - lo) (fun i => g (lo + i)%nat)).
Proof.
  intros H. destruct (le_lt_dec hi lo) as [L|L].
  { rewrite for_nat_empty by auto. replace (hi - lo)%nat with 0%nat by lia. simpl. f_equal. ring. }
  destruct (for_nat_inv (fun i t => t = s + Sig (i - lo) (fun i => g (lo + i)%nat)) body lo hi s) as (t & E & P).
  - lia.
  - rewrite Nat.sub_diag. simpl. ring.
  - intros i t Hi ->. exists (s + Sig (i - lo) (fun i => g (lo + i)%nat) + g i). rewrite H by auto. split; auto.
    replace (i + 1 - lo)%nat with (S (i - lo)) by lia. rewrite Sig_S. replace (lo + (i - lo))%nat with i by lia. ring.
  - rewrite E, P. reflexivity.
Qed.
(** c[j] = v(j) for lo <= j < hi *)
Lemma fill_loop {A} lo hi (body : nat -> list A -> res (list A)) (v : nat -> A) (c : list A) (d : A) :
  (hi <= List.length c)%nat -> (forall j s, (lo <= j < hi)%nat -> List.length s = List.length c -> body j s = wr s j (v j)) ->
  exists c', for_nat lo hi body c = Ok c' /\ List.length c' = List.length c /\
    forall j, nth j c' d = if ((lo <=? j) && (j <? hi))%nat then v j else nth j c d.
Proof.
  intros L H. destruct (le_lt_dec hi lo) as [G|G].
  { exists c. rewrite for_nat_empty by auto. repeat split; auto. intros j. destruct (Nat.leb_spec lo j), (Nat.ltb_spec j hi); cbn [andb]; auto; lia. }
  destruct (for_nat_inv (fun i s => List.length s = List.length c /\ forall j, nth j s d = if ((lo <=? j) && (j <? i))%nat then v j else nth j c d) body lo hi c) as (c' & E & P1 & P2).
  - lia.
  - split; auto. intros j. destruct (Nat.leb_spec lo j), (Nat.ltb_spec j lo); cbn [andb]; auto; lia.
  - intros i s Hi [P1 P2]. exists (upd s i (v i)). rewrite H by auto. split. { apply wr_ok. lia. } split. { now rewrite upd_length. }
    intros j. destruct (Nat.eq_dec j i) as [->|NE].
    + rewrite nth_upd_eq by lia. destruct (Nat.leb_spec lo i), (Nat.ltb_spec i (i + 1)); cbn [andb]; auto; lia.
    + rewrite nth_upd_ne by auto. rewrite P2. destruct (Nat.leb_spec lo j), (Nat.ltb_spec j i), (Nat.ltb_spec j (i + 1)); cbn [andb]; auto; lia.
  - exists c'. auto.
Qed.
Lemma list_eq_R (a b : list R) : List.length a = List.length b -> (forall i, (i < List.length a)%nat -> a.[i] = b.[i]) -> a = b.
Proof. intros. apply (nth_ext a b 0 0); auto. Qed.
