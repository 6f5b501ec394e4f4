(** Loops of the C code as monadic iteration over the sequence of values of the loop variable. *)
From Verif Require Import Base.

(** for (x in l) s = body(x, s) *)
Fixpoint forl {X S : Type} (l : list X) (body : X -> S -> res S) (s : S) : res S :=
  match l with [] => Ok s | x :: r => do s1 <- body x s; forl r body s1 end.
(** for (i = lo; i < hi; i++) *)
Definition for_nat {S : Type} (lo hi : nat) (body : nat -> S -> res S) (s : S) : res S := forl (seq lo (hi - lo)) body s.

Lemma forl_app {X S} (l1 l2 : list X) (body : X -> S -> res S) s :
  forl (l1 ++ l2) body s = (do s1 <- forl l1 body s; forl l2 body s1).
Proof. revert s. induction l1 as [|x l IH]; intros s; cbn [forl app rbind]; auto. destruct (body x s); cbn [rbind]; auto. Qed.
Lemma forl_flat {X Y S} (l : list X) (f : X -> list Y) (body : Y -> S -> res S) s :
  forl (flat_map f l) body s = forl l (fun x => forl (f x) body) s.
Proof. revert s. induction l as [|x l IH]; intros s; cbn [forl flat_map]; auto. rewrite forl_app. destruct (forl (f x) body s); cbn [rbind]; auto. Qed.
Lemma forl_map {X Y S} (l : list X) (f : X -> Y) (body : Y -> S -> res S) s :
  forl (map f l) body s = forl l (fun x => body (f x)) s.
Proof. revert s. induction l as [|x l IH]; intros s; cbn [forl map]; auto. destruct (body (f x) s); cbn [rbind]; auto. Qed.
Lemma forl_ext {X S} (l : list X) (b1 b2 : X -> S -> res S) : (forall x s, In x l -> b1 x s = b2 x s) -> forall s, forl l b1 s = forl l b2 s.
Proof.
  induction l as [|x l IH]; intros E s; cbn [forl]; auto. rewrite E by (now left). destruct (b2 x s); cbn [rbind]; auto. apply IH. intros. apply E. now right.
Qed.
(** invariant rule *)
Lemma forl_inv {S} (P : nat -> S -> Prop) (body : nat -> S -> res S) n : forall lo s, P lo s ->
  (forall i s, lo <= i < lo + n -> P i s -> exists s', body i s = Ok s' /\ P (i + 1) s') ->
  exists s', forl (seq lo n) body s = Ok s' /\ P (lo + n) s'.
Proof.
  induction n as [|n IH]; intros lo s H0 HS; cbn [seq forl].
  - exists s. rewrite Nat.add_0_r. auto.
  - destruct (HS lo s) as (s1 & E & H1); [lia|auto|]. rewrite E. cbn [rbind].
    destruct (IH (lo + 1) s1 H1) as (s2 & E2 & H2). { intros. apply HS; auto. lia. }
    exists s2. rewrite Nat.add_1_r in E2. split; auto. now replace (lo + Datatypes.S n) with (lo + 1 + n) by lia.
Qed.
Lemma for_nat_inv {S} (P : nat -> S -> Prop) (body : nat -> S -> res S) lo hi s : lo <= hi -> P lo s ->
  (forall i s, lo <= i < hi -> P i s -> exists s', body i s = Ok s' /\ P (i + 1) s') ->
  exists s', for_nat lo hi body s = Ok s' /\ P hi s'.
Proof.
  intros L H0 HS. unfold for_nat. destruct (forl_inv P body (hi - lo) lo s H0) as (s' & E & H). { intros. apply HS; auto. lia. }
  exists s'. split; auto. now replace hi with (lo + (hi - lo)) by lia.
Qed.
