(** Finite sums of real numbers: [Sig n f] = f 0 + ... + f (n-1), and sums over lists.  Part of the
    specification vocabulary; no code is modelled here. *)
From Verif Require Export Rutil.
From Coq Require Import Permutation.
Local Open Scope R_scope.

Fixpoint Sig (n : nat) (f : nat -> R) : R := match n with O => 0 | S m => Sig m f + f m end.

Lemma Sig_S n f : Sig (S n) f = Sig n f + f n.
Proof. reflexivity. Qed.
Lemma Sig_ext n f g : (forall i, (i < n)%nat -> f i = g i) -> Sig n f = Sig n g.
Proof. induction n as [|n IH]; intros H; simpl; auto. rewrite IH, H; auto with arith. Qed.
Lemma Sig_0 n : Sig n (fun _ => 0) = 0.
Proof. induction n; simpl; lra. Qed.
Lemma Sig_zero n f : (forall i, (i < n)%nat -> f i = 0) -> Sig n f = 0.
Proof. intros H. rewrite (Sig_ext n f (fun _ => 0)); auto. apply Sig_0. Qed.
Lemma Sig_const n c : Sig n (fun _ => c) = INR n * c.
Proof. induction n as [|n IH]; [simpl; lra|]. rewrite Sig_S, IH, S_INR. lra. Qed.
Lemma Sig_plus n f g : Sig n (fun i => f i + g i) = Sig n f + Sig n g.
Proof. induction n; simpl; lra. Qed.
Lemma Sig_minus n f g : Sig n (fun i => f i - g i) = Sig n f - Sig n g.
Proof. induction n; simpl; lra. Qed.
Lemma Sig_opp n f : Sig n (fun i => - f i) = - Sig n f.
Proof. induction n; simpl; lra. Qed.
Lemma Sig_scal n c f : Sig n (fun i => c * f i) = c * Sig n f.
Proof. induction n as [|n IH]; simpl; [lra|]. rewrite IH. lra. Qed.
Lemma Sig_scal_r n c f : Sig n (fun i => f i * c) = Sig n f * c.
Proof. induction n as [|n IH]; simpl; [lra|]. rewrite IH. lra. Qed.
Lemma Sig_swap n m (f : nat -> nat -> R) : Sig n (fun i => Sig m (f i)) = Sig m (fun j => Sig n (fun i => f i j)).
Proof. induction n as [|n IH]; simpl. { symmetry. apply Sig_0. } rewrite IH, <- Sig_plus. reflexivity. Qed.
Lemma Sig_add n m f : Sig (n + m) f = Sig n f + Sig m (fun i => f (n + i)%nat).
Proof. induction m as [|m IH]; simpl. { rewrite Nat.add_0_r. lra. } rewrite Nat.add_succ_r. simpl. rewrite IH. lra. Qed.
Lemma Sig_S_l n f : Sig (S n) f = f O + Sig n (fun i => f (S i)).
Proof. change (S n) with (1 + n)%nat. rewrite Sig_add. simpl. lra. Qed.
Lemma Sig_delta n k f : (k < n)%nat -> Sig n (fun i => if Nat.eqb i k then f i else 0) = f k.
Proof.
  induction n as [|n IH]; intros H; [lia|]. simpl. destruct (Nat.eqb_spec n k) as [->|N].
  - rewrite Sig_zero; [lra|]. intros i Hi. destruct (Nat.eqb_spec i k); [lia|auto].
  - rewrite IH by lia. lra.
Qed.
Lemma Sig_delta_out n k f : (n <= k)%nat -> Sig n (fun i => if Nat.eqb i k then f i else 0) = 0.
Proof. intros H. apply Sig_zero. intros i Hi. destruct (Nat.eqb_spec i k); [lia|auto]. Qed.
Lemma Sig_single n k f : (k < n)%nat -> (forall i, (i < n)%nat -> i <> k -> f i = 0) -> Sig n f = f k.
Proof.
  intros H Z. rewrite <- (Sig_delta n k f H). apply Sig_ext. intros i Hi. destruct (Nat.eqb_spec i k); auto.
Qed.
Lemma Sig_rev n : forall f, Sig n f = Sig n (fun i => f (n - 1 - i)%nat).
Proof.
  induction n as [|n IH]; intros f; auto. rewrite Sig_S_l, (Sig_S n (fun i => f (S n - 1 - i)%nat)).
  replace (S n - 1 - n)%nat with 0%nat by lia. rewrite Rplus_comm. f_equal.
  rewrite (IH (fun i => f (S i))). apply Sig_ext. intros i Hi. f_equal. lia.
Qed.
Lemma Sig_tele n f : Sig n (fun i => f (S i) - f i) = f n - f O.
Proof. induction n as [|n IH]; simpl; [lra|]. rewrite IH. lra. Qed.
Lemma Sig_abs n f : Rabs (Sig n f) <= Sig n (fun i => Rabs (f i)).
Proof. induction n as [|n IH]; simpl. { rewrite Rabs_R0. lra. } eapply Rle_trans; [apply Rabs_triang|]. lra. Qed.
Lemma Sig_le n f g : (forall i, (i < n)%nat -> f i <= g i) -> Sig n f <= Sig n g.
Proof. induction n as [|n IH]; intros H; simpl; [lra|]. apply Rplus_le_compat; auto. Qed.
Lemma Sig_nonneg n f : (forall i, (i < n)%nat -> 0 <= f i) -> 0 <= Sig n f.
Proof. intros H. rewrite <- (Sig_0 n). apply Sig_le. auto. Qed.
Lemma Sig_prod n m f : Sig (n * m) f = Sig n (fun i => Sig m (fun j => f (i * m + j)%nat)).
Proof.
  induction n as [|n IH]; auto. replace (S n * m)%nat with (n * m + m)%nat by lia. rewrite Sig_add, IH. reflexivity.
Qed.

(** Sums over lists. *)
Definition lsum {A} (f : A -> R) (l : list A) : R := fold_right (fun a s => f a + s) 0 l.
Lemma lsum_nil {A} (f : A -> R) : lsum f [] = 0. Proof. reflexivity. Qed.
Lemma lsum_cons {A} (f : A -> R) a l : lsum f (a :: l) = f a + lsum f l. Proof. reflexivity. Qed.
Lemma lsum_app {A} (f : A -> R) l1 l2 : lsum f (l1 ++ l2) = lsum f l1 + lsum f l2.
Proof. induction l1 as [|a l IH]; cbn [app]. { rewrite lsum_nil. lra. } rewrite !lsum_cons, IH. lra. Qed.
Lemma lsum_ext {A} (f g : A -> R) l : (forall a, In a l -> f a = g a) -> lsum f l = lsum g l.
Proof. induction l as [|a l IH]; intros H; auto. rewrite !lsum_cons, IH, (H a); auto; [now left|intros; apply H; now right]. Qed.
Lemma lsum_plus {A} (f g : A -> R) l : lsum (fun a => f a + g a) l = lsum f l + lsum g l.
Proof. induction l as [|a l IH]; [cbn; lra|]. rewrite !lsum_cons, IH. lra. Qed.
Lemma lsum_scal {A} c (f : A -> R) l : lsum (fun a => c * f a) l = c * lsum f l.
Proof. induction l as [|a l IH]; [cbn; lra|]. rewrite !lsum_cons, IH. lra. Qed.
Lemma lsum_scal_r {A} c (f : A -> R) l : lsum (fun a => f a * c) l = lsum f l * c.
Proof. induction l as [|a l IH]; [cbn; lra|]. rewrite !lsum_cons, IH. lra. Qed.
Lemma lsum_zero {A} (f : A -> R) l : (forall a, In a l -> f a = 0) -> lsum f l = 0.
Proof. induction l as [|a l IH]; intros H; auto. rewrite lsum_cons, IH, (H a); [lra|now left|intros; apply H; now right]. Qed.
Lemma lsum_map {A B} (f : B -> R) (g : A -> B) l : lsum f (map g l) = lsum (fun a => f (g a)) l.
Proof. induction l as [|a l IH]; auto. cbn [map]. rewrite !lsum_cons, IH. auto. Qed.
Lemma lsum_swap {A B} (f : A -> B -> R) l k : lsum (fun a => lsum (f a) k) l = lsum (fun b => lsum (fun a => f a b) l) k.
Proof.
  induction l as [|a l IH]. { rewrite (lsum_zero _ k); auto. }
  rewrite lsum_cons, IH, <- lsum_plus. apply lsum_ext. intros b _. reflexivity.
Qed.
Lemma lsum_flat {A B} (f : B -> R) (g : A -> list B) l : lsum f (flat_map g l) = lsum (fun a => lsum f (g a)) l.
Proof. induction l as [|a l IH]; auto. cbn [flat_map]. rewrite lsum_app, lsum_cons, IH. auto. Qed.
Lemma lsum_seq f n : lsum f (seq 0 n) = Sig n f.
Proof. induction n as [|n IH]; auto. rewrite seq_S, lsum_app, IH, Sig_S. cbn. lra. Qed.
Lemma lsum_abs {A} (f : A -> R) l : Rabs (lsum f l) <= lsum (fun a => Rabs (f a)) l.
Proof. induction l as [|a l IH]. { cbn. rewrite Rabs_R0. lra. } rewrite !lsum_cons. eapply Rle_trans; [apply Rabs_triang|]. lra. Qed.
Lemma lsum_le {A} (f g : A -> R) l : (forall a, In a l -> f a <= g a) -> lsum f l <= lsum g l.
Proof. induction l as [|a l IH]; intros H; [cbn; lra|]. rewrite !lsum_cons. apply Rplus_le_compat; [apply H; now left|apply IH; intros; apply H; now right]. Qed.
Lemma lsum_perm {A} (f : A -> R) l k : Permutation l k -> lsum f l = lsum f k.
Proof. induction 1; rewrite ?lsum_cons; auto; lra. Qed.
Lemma lsum_fold {A} (f : A -> R) l : forall s, fold_left (fun s a => s + f a) l s = s + lsum f l.
Proof. induction l as [|a l IH]; intros s; cbn [fold_left]. { cbn. lra. } rewrite IH, lsum_cons. lra. Qed.
