(** n+1 vectors with n components are linearly dependent. *)
From Verif Require Import Rutil Rsum Lu_spec.
Local Open Scope R_scope.
Lemma Sig_skip n q f : (q <= n)%nat -> Sig (S n) f = f q + Sig n (fun k => f (skip q k)).
Proof.
  revert q f. induction n as [|n IH]; intros q f H.
  - replace q with 0%nat by lia. rewrite Sig_S. cbn. ring.
  - destruct (Nat.eq_dec q (S n)) as [->|N].
    + rewrite Sig_S, Rplus_comm. f_equal. apply Sig_ext. intros k Hk. unfold skip. destruct (Nat.ltb_spec k (S n)); [auto|lia].
    + rewrite Sig_S, (IH q f) by lia. rewrite (Sig_S n (fun k => f (skip q k))). unfold skip at 3. destruct (Nat.ltb_spec n q); [lia|]. ring.
Qed.
Lemma all_zero_or (f : nat -> R) m : (forall k, (k < m)%nat -> f k = 0) \/ exists k, (k < m)%nat /\ f k <> 0.
Proof.
  induction m as [|m [IH|(k & Hk & N)]]; [left; lia| |right; exists k; split; [lia|auto]].
  destruct (Req_dec (f m) 0) as [Z|N]; [left|right; exists m; split; [lia|auto]]. intros k Hk. destruct (Nat.eq_dec k m) as [->|]; auto. apply IH; lia.
Qed.
Lemma lindep n : forall V : nat -> nat -> R, exists a : nat -> R, (exists k, (k <= n)%nat /\ a k <> 0) /\ forall i, (i < n)%nat -> Sig (S n) (fun k => a k * V k i) = 0.
Proof.
  induction n as [|n IH]; intros V. { exists (fun _ => 1). split; [exists 0%nat; split; [lia|lra]|lia]. }
  destruct (all_zero_or (fun k => V k n) (S (S n))) as [Z|(q & Hq & NZ)].
  - destruct (IH V) as (a & (k & Hk & Na) & Ha). exists (fun k => if (k =? S n)%nat then 0 else a k). split. { exists k. split; [lia|]. destruct (Nat.eqb_spec k (S n)); [lia|auto]. }
    intros i Hi. rewrite Sig_S, Nat.eqb_refl, Rmult_0_l, Rplus_0_r. rewrite (Sig_ext _ _ (fun k => a k * V k i)). 2:{ intros j Hj. destruct (Nat.eqb_spec j (S n)); [lia|auto]. }
    destruct (Nat.eq_dec i n) as [->|]; [|apply Ha; lia]. apply Sig_zero. intros j Hj. rewrite Z by lia. ring.
  - destruct (IH (fun k i => V (skip q k) i - V (skip q k) n / V q n * V q i)) as (a & (k & Hk & Na) & Ha).
    set (unskip i := if (i <? q)%nat then i else pred i). assert (US : forall k, unskip (skip q k) = k). { intros j. unfold unskip, skip. destruct (Nat.ltb_spec j q). - destruct (Nat.ltb_spec j q); lia. - destruct (Nat.ltb_spec (S j) q); lia. }
    assert (SN : forall k, skip q k <> q) by (intros j; unfold skip; destruct (Nat.ltb_spec j q); lia).
    set (c := - Sig (S n) (fun k => a k * V (skip q k) n) / V q n).
    exists (fun j => if (j =? q)%nat then c else a (unskip j)). split. { exists (skip q k). split. { unfold skip. destruct (Nat.ltb_spec k q); lia. } destruct (Nat.eqb_spec (skip q k) q) as [E|]; [now apply SN in E|]. now rewrite US. }
    intros i Hi. rewrite (Sig_skip (S n) q) by lia. rewrite Nat.eqb_refl. rewrite (Sig_ext _ _ (fun k => a k * V (skip q k) i)). 2:{ intros j Hj. destruct (Nat.eqb_spec (skip q j) q) as [E|]; [now apply SN in E|]. now rewrite US. }
    destruct (Nat.eq_dec i n) as [->|]. { unfold c. field. auto. }
    specialize (Ha i ltac:(lia)). rewrite (Sig_ext _ _ (fun k => a k * V (skip q k) i - a k * V (skip q k) n * (V q i / V q n))) in Ha by (intros; field; auto). rewrite Sig_minus, Sig_scal_r in Ha. unfold c. apply Rminus_diag_uniq in Ha. rewrite Ha. field. auto.
Qed.
