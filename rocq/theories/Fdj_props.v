(** C119: the finite difference Jacobian leaves x alone, is exact for affine functions and is off by the step times the curvature otherwise. *)
From Verif Require Import Rutil Fdj_model.
From Coq Require Import List Lia FunctionalExtensionality.
Import ListNotations.
Local Open Scope R_scope.
(** ** specification *)
(** x + t e_j *)
Definition shift (x : nat -> R) (j : nat) (t : R) : nat -> R := fun i => if Nat.eqb i j then x i + t else x i.
Fixpoint sum1 (n : nat) (f : nat -> R) : R := match n with O => 0 | S n => sum1 n f + f (S n) end.
Definition affine (n : nat) (F : nat -> (nat -> R) -> nat -> R) (A : nat -> nat -> R) (b : nat -> R) : Prop := forall x i, (1 <= i <= n)%nat -> F n x i = sum1 n (fun j => A i j * x j) + b i.
Definition within (n i : nat) : Prop := (1 <= i <= n)%nat.
(** the difference quotient in direction j with step t *)
Definition quotient (n : nat) (F : nat -> (nat -> R) -> nat -> R) (fvec x : nat -> R) (i j : nat) (t : R) : R := (F n (shift x j t) i - fvec i) / t.
(** the step the code starts from: 1e-7 |x|, but at least 1e-10 *)
Definition first_step (t h : R) : Prop := h = Rmax (Rabs t / 10 ^ 7) (/ 10 ^ 10).
(** ** proofs *)
Lemma set_shift x j h : fj_set x j (x j + h) = shift x j h.
Proof. apply functional_extensionality. intros i. unfold fj_set, shift. destruct (Nat.eqb i j) eqn:E; auto. apply Nat.eqb_eq in E. now subst. Qed.
Lemma set_back x j t : fj_set (shift x j t) j (x j) = x.
Proof. apply functional_extensionality. intros i. unfold fj_set, shift. destruct (Nat.eqb i j) eqn:E; auto. apply Nat.eqb_eq in E. now subst. Qed.
Lemma shift_j x j t : shift x j t j - x j = t. Proof. unfold shift. rewrite Nat.eqb_refl. ring. Qed.
Lemma h_ok t : first_step t (fj_h t).
Proof. unfold first_step, fj_h, Rmax. destruct (Rlt_dec _ _), (Rle_dec _ _); try lra; cbn [pow] in *; lra. Qed.
Lemma h_pos t : 0 < fj_h t. Proof. unfold fj_h. destruct (Rlt_dec _ _); lra. Qed.
Definition col_is (n j : nat) (c : nat -> R) (df df' : nat -> nat -> R) : Prop := forall i k, df' i k = if (Nat.eqb k j && (Nat.leb 1 i && Nat.leb i n))%bool then c i else df i k.
Lemma step_ok n F fvec x df j : fst (fj_step n F fvec (x, df) j) = x /\ col_is n j (fun i => quotient n F fvec x i j (fj_h (x j))) df (snd (fj_step n F fvec (x, df) j)).
Proof. unfold fj_step. cbn [fst snd]. rewrite set_shift, shift_j, set_back. split; [reflexivity|]. intros i k. reflexivity. Qed.
Lemma nonzero_false n j df : fj_nonzero n j df = false <-> forall i, within n i -> df i j = 0.
Proof.
  unfold fj_nonzero, within. split.
  - intros E i Hi. destruct (Req_EM_T (df i j) 0) as [|N]; auto. exfalso. assert (T : existsb (fun i => if Req_EM_T (df i j) 0 then false else true) (seq 1 n) = true); [|congruence]. apply existsb_exists. exists i. split; [apply in_seq; lia|]. now destruct (Req_EM_T (df i j) 0).
  - intros H. destruct (existsb _ (seq 1 n)) eqn:E; auto. apply existsb_exists in E as (i & I & T). apply in_seq in I. destruct (Req_EM_T (df i j) 0) as [|N]; [discriminate|]. exfalso. apply N, H. lia.
Qed.
(** the tries use the steps h, 10 h, 100 h, ... up to the first one with a difference *)
Lemma tries_ok n F fvec j x : forall k h df, (0 < k)%nat -> let r := fj_tries n F fvec j (x j) k h x df in fst r = x /\
  exists m, (m < k)%nat /\ col_is n j (fun i => quotient n F fvec x i j (h * 10 ^ m)) df (snd r) /\ (forall m', (m' < m)%nat -> forall i, within n i -> quotient n F fvec x i j (h * 10 ^ m') = 0) /\
    ((m < k - 1)%nat -> exists i, within n i /\ quotient n F fvec x i j (h * 10 ^ m) <> 0).
Proof.
  induction k as [|k IH]; intros h df Hk; [lia|]. cbv zeta. cbn [fj_tries]. rewrite set_shift, shift_j, set_back.
  set (df1 := fj_col n j (F n (shift x j h)) fvec h df).
  assert (C1 : col_is n j (fun i => quotient n F fvec x i j (h * 10 ^ 0)) df df1) by (intros i q; cbn [pow]; rewrite Rmult_1_r; reflexivity).
  assert (V : forall i, within n i -> df1 i j = quotient n F fvec x i j (h * 10 ^ 0)).
  { intros i Hi. rewrite (C1 i j), Nat.eqb_refl. destruct Hi as (H1 & H2). apply Nat.leb_le in H1, H2. now rewrite H1, H2. }
  destruct (fj_nonzero n j df1) eqn:NZ.
  - cbn [fst snd]. split; [reflexivity|]. exists 0%nat. split; [lia|]. split; [exact C1|]. split; [intros; lia|]. intros _.
    unfold fj_nonzero in NZ. apply existsb_exists in NZ as (i & I & T). apply in_seq in I. exists i. assert (Hi : within n i) by (unfold within; lia). split; [exact Hi|]. rewrite <- V by exact Hi. destruct (Req_EM_T (df1 i j) 0); [discriminate|assumption].
  - pose proof (proj1 (nonzero_false n j df1) NZ) as Z0. destruct k as [|k].
    + cbn [fj_tries fst snd]. split; [reflexivity|]. exists 0%nat. split; [lia|]. split; [exact C1|]. split; intros; lia.
    + destruct (IH (h * 10) df1 ltac:(lia)) as (E1 & m & Hm & C2 & ZZ & NN). split; [exact E1|]. exists (S m). split; [lia|]. assert (PW : forall q, h * 10 * 10 ^ q = h * 10 ^ (S q)) by (intros; cbn [pow]; ring).
      split; [|split].
      * intros i q. rewrite (C2 i q), PW. destruct (Nat.eqb q j && (Nat.leb 1 i && Nat.leb i n))%bool eqn:E; auto. rewrite (C1 i q), E. reflexivity.
      * intros m' Hm' i Hi. destruct m' as [|m']; [rewrite <- V by exact Hi; now apply Z0|]. rewrite <- PW. apply ZZ; [lia|exact Hi].
      * intros L. destruct (NN ltac:(lia)) as (i & Hi & Q). exists i. split; [exact Hi|]. now rewrite <- PW.
Qed.
(** a loop over the columns *)
Lemma cols_ok (n : nat) (body : (nat -> R) * (nat -> nat -> R) -> nat -> (nat -> R) * (nat -> nat -> R)) (Q : nat -> nat -> R -> Prop) x :
  (forall df j, within n j -> fst (body (x, df) j) = x /\ exists c, col_is n j c df (snd (body (x, df) j)) /\ forall i, within n i -> Q i j (c i)) ->
  forall len a df, (1 <= a)%nat -> (a + len <= S n)%nat -> let r := fold_left body (seq a len) (x, df) in fst r = x /\ (forall i j, within n i -> (a <= j < a + len)%nat -> Q i j (snd r i j)) /\
    (forall i j, ~ (within n i /\ (a <= j < a + len)%nat) -> snd r i j = df i j).
Proof.
  intros HB. induction len as [|len IH]; intros a df Ha Hn; cbn [seq fold_left]; cbv zeta.
  - split; [reflexivity|]. split; [intros; lia|auto].
  - destruct (HB df a) as (E & c & C & HQ); [unfold within; lia|]. destruct (body (x, df) a) as (x', df') eqn:EB. cbn [fst snd] in E, C. subst x'.
    destruct (IH (S a) df' ltac:(lia) ltac:(lia)) as (E1 & V1 & V2). split; [exact E1|]. split.
    + intros i j Hi Hj. destruct (Nat.eq_dec j a) as [->|NE]; [|apply V1; [exact Hi|lia]]. rewrite V2 by lia. rewrite (C i a), Nat.eqb_refl. pose proof Hi as (H1 & H2). apply Nat.leb_le in H1, H2. rewrite H1, H2. now apply HQ.
    + intros i j N. rewrite V2 by (intros (Q1 & Q2); apply N; split; [exact Q1|lia]). rewrite (C i j). destruct (Nat.eqb j a && (Nat.leb 1 i && Nat.leb i n))%bool eqn:EE; auto.
      exfalso. apply N. apply andb_prop in EE as (E2 & E3). apply andb_prop in E3 as (E3 & E4). apply Nat.eqb_eq in E2. apply Nat.leb_le in E3, E4. unfold within. lia.
Qed.
(** ** x comes back as it was, nothing outside the n by n matrix is written, and every entry is a difference quotient with a step of known size *)
Theorem C119_quotients n x fvec df F : let r := fd_jacobian n x fvec df F in fst r = x /\ (forall i j, ~ (within n i /\ within n j) -> snd r i j = df i j) /\
  forall i j, within n i -> within n j -> exists h, first_step (x j) h /\ snd r i j = quotient n F fvec x i j h.
Proof.
  intros r. destruct (cols_ok n (fj_step n F fvec) (fun i j v => exists h, first_step (x j) h /\ v = quotient n F fvec x i j h) x) with (len := n) (a := 1%nat) (df := df) as (E & V1 & V2); try lia.
  - intros df0 j Hj. destruct (step_ok n F fvec x df0 j) as (E & C). split; [exact E|]. eexists. split; [exact C|]. intros i Hi. exists (fj_h (x j)). split; [apply h_ok|reflexivity].
  - split; [exact E|]. split; [intros i j N; apply V2; intros (Q1 & Q2); apply N; split; [exact Q1|unfold within; lia]|]. intros i j Hi Hj. apply V1; [exact Hi|unfold within in Hj; lia].
Qed.
(** the same for fd_jacobianP, which takes ten times the step, up to seven times, as long as nothing changes; a column of zeros is left only if none of the eight steps changes anything *)
Theorem C119_quotients_par n x fvec df F : let r := fd_jacobianP n x fvec df F in fst r = x /\ (forall i j, ~ (within n i /\ within n j) -> snd r i j = df i j) /\
  forall j, within n j -> exists h m, first_step (x j) h /\ (m < 8)%nat /\ (forall i, within n i -> snd r i j = quotient n F fvec x i j (h * 10 ^ m)) /\
    ((forall i, within n i -> snd r i j = 0) -> forall m', (m' < 8)%nat -> forall i, within n i -> F n (shift x j (h * 10 ^ m')) i = fvec i).
Proof.
  intros r.
  set (cond := fun (j m : nat) => let h := fj_h (x j) in (m < 8)%nat /\ (forall m', (m' < m)%nat -> forall i, within n i -> quotient n F fvec x i j (h * 10 ^ m') = 0) /\ ((m < 8 - 1)%nat -> exists i, within n i /\ quotient n F fvec x i j (h * 10 ^ m) <> 0)).
  destruct (cols_ok n (fun s j => fj_tries n F fvec j (fst s j) 8 (fj_h (fst s j)) (fst s) (snd s)) (fun i j v => exists m, cond j m /\ v = quotient n F fvec x i j (fj_h (x j) * 10 ^ m)) x) with (len := n) (a := 1%nat) (df := df) as (E & V1 & V2); try lia.
  { intros df0 j Hj. cbn [fst snd]. destruct (tries_ok n F fvec j x 8 (fj_h (x j)) df0 ltac:(lia)) as (E & m & Hm & C & ZZ & NN). split; [exact E|]. eexists. split; [exact C|]. intros i Hi. exists m. split; [|reflexivity]. repeat split; auto. }
  split; [exact E|]. split; [intros i j N; apply V2; intros (Q1 & Q2); apply N; split; [exact Q1|unfold within; lia]|].
  intros j Hj. assert (V : forall i, within n i -> exists m, cond j m /\ snd r i j = quotient n F fvec x i j (fj_h (x j) * 10 ^ m)) by (intros i Hi; apply V1; [exact Hi|unfold within in Hj; lia]).
  assert (UN : forall m m', cond j m -> cond j m' -> m = m').
  { intros m m' (B1 & Z1 & N1) (B2 & Z2 & N2). destruct (lt_eq_lt_dec m m') as [[L|L]|L]; auto; exfalso.
    - destruct (N1 ltac:(lia)) as (i & Hi & Q). apply Q. now apply Z2.
    - destruct (N2 ltac:(lia)) as (i & Hi & Q). apply Q. now apply Z1. }
  destruct (V j Hj) as (m & CM & _). exists (fj_h (x j)), m. split; [apply h_ok|]. split; [apply CM|]. assert (W : forall i, within n i -> snd r i j = quotient n F fvec x i j (fj_h (x j) * 10 ^ m)) by (intros i Hi; destruct (V i Hi) as (m' & CM' & ->); now rewrite (UN m m' CM CM')).
  split; [exact W|]. intros Z0 m' Hm' i Hi. destruct CM as (B1 & Z1 & N1).
  assert (m = 7%nat) as ->. { destruct (Nat.lt_ge_cases m (8 - 1)) as [L|L]; [|lia]. exfalso. destruct (N1 L) as (i' & Hi' & Q). apply Q. rewrite <- W by exact Hi'. now apply Z0. }
  assert (Q0 : quotient n F fvec x i j (fj_h (x j) * 10 ^ m') = 0). { destruct (Nat.eq_dec m' 7) as [->|NE]; [rewrite <- W by exact Hi; now apply Z0|apply Z1; [lia|exact Hi]]. }
  unfold quotient, Rdiv in Q0. assert (P : 0 < fj_h (x j) * 10 ^ m') by (apply Rmult_lt_0_compat; [apply h_pos|apply pow_lt; lra]). apply Rmult_integral in Q0 as [Q0|Q0]; [lra|]. apply Rinv_neq_0_compat in Q0; [contradiction|lra].
Qed.
(** ** accuracy *)
Lemma sum1_shift n f x j t : within n j -> sum1 n (fun k => f k * shift x j t k) = sum1 n (fun k => f k * x k) + f j * t.
Proof.
  assert (G : forall m, sum1 m (fun k => f k * shift x j t k) = sum1 m (fun k => f k * x k) + (if (Nat.leb 1 j && Nat.leb j m)%bool then f j * t else 0)).
  { induction m as [|m IH]; cbn [sum1]; [destruct (Nat.leb 1 j) eqn:E; cbn [andb]; [|ring]; apply Nat.leb_le in E; destruct (Nat.leb j 0) eqn:E'; [apply Nat.leb_le in E'; lia|ring]|].
    rewrite IH. unfold shift. destruct (Nat.eqb (S m) j) eqn:E.
    - apply Nat.eqb_eq in E. subst j. replace (Nat.leb (S m) m) with false by (symmetry; apply Nat.leb_gt; lia). rewrite Nat.leb_refl. cbn [Nat.leb andb]. ring.
    - apply Nat.eqb_neq in E. replace (Nat.leb j (S m)) with (Nat.leb j m); [ring|]. destruct (Nat.leb j m) eqn:E1, (Nat.leb j (S m)) eqn:E2; auto; apply Nat.leb_le in E1 || apply Nat.leb_gt in E1; apply Nat.leb_le in E2 || apply Nat.leb_gt in E2; lia. }
  intros (H1 & H2). rewrite G. apply Nat.leb_le in H1, H2. now rewrite H1, H2.
Qed.
Lemma step_pos t h m : first_step t h -> 0 < h * 10 ^ m.
Proof. intros ->. apply Rmult_lt_0_compat; [|apply pow_lt; lra]. eapply Rlt_le_trans; [|apply Rmax_r]. apply Rinv_0_lt_compat, pow_lt. lra. Qed.
Lemma affine_q n F A b x fvec i j t : affine n F A b -> (forall i, within n i -> fvec i = F n x i) -> within n i -> within n j -> t <> 0 -> quotient n F fvec x i j t = A i j.
Proof. intros HA HF Hi Hj Ht. unfold quotient. rewrite (HF i Hi), !HA by exact Hi. rewrite (sum1_shift n (A i) x j t Hj). field. exact Ht. Qed.
Theorem C119_affine n x fvec df F A b : affine n F A b -> (forall i, within n i -> fvec i = F n x i) -> forall i j, within n i -> within n j ->
  snd (fd_jacobian n x fvec df F) i j = A i j /\ snd (fd_jacobianP n x fvec df F) i j = A i j.
Proof.
  intros HA HF i j Hi Hj. destruct (C119_quotients n x fvec df F) as (_ & _ & V). destruct (C119_quotients_par n x fvec df F) as (_ & _ & W). split.
  - destruct (V i j Hi Hj) as (h & Hh & ->). apply (affine_q n F A b); auto. pose proof (step_pos _ _ 0 Hh) as P. cbn [pow] in P. lra.
  - destruct (W j Hj) as (h & m & Hh & _ & E & _). rewrite (E i Hi). apply (affine_q n F A b); auto. pose proof (step_pos _ _ m Hh). lra.
Qed.
(** For a function that differs from its linear part by at most B t^2 the error is at most B times the step: for fd_jacobianP, if the first step changes something. *)
Theorem C119_error n x fvec df F d B j h : first_step (x j) h -> within n j -> (forall i t, within n i -> 0 <= t <= h -> Rabs (F n (shift x j t) i - fvec i - t * d i) <= B * (t * t)) ->
  (forall i, within n i -> Rabs (snd (fd_jacobian n x fvec df F) i j - d i) <= B * h) /\
  ((exists i, within n i /\ F n (shift x j h) i <> fvec i) -> forall i, within n i -> Rabs (snd (fd_jacobianP n x fvec df F) i j - d i) <= B * h).
Proof.
  intros Hh Hj HB. pose proof (step_pos _ _ 0 Hh) as P. cbn [pow] in P. rewrite Rmult_1_r in P.
  assert (Q : forall i, within n i -> Rabs (quotient n F fvec x i j h - d i) <= B * h).
  { intros i Hi. specialize (HB i h Hi ltac:(lra)). unfold quotient. replace ((F n (shift x j h) i - fvec i) / h - d i) with ((F n (shift x j h) i - fvec i - h * d i) * / h) by (field; lra).
    rewrite Rabs_mult, (Rabs_pos_eq (/ h)) by (left; now apply Rinv_0_lt_compat). apply (Rmult_le_reg_r h); [exact P|]. replace (Rabs (F n (shift x j h) i - fvec i - h * d i) * / h * h) with (Rabs (F n (shift x j h) i - fvec i - h * d i)) by (field; lra). lra. }
  split.
  - intros i Hi. destruct (C119_quotients n x fvec df F) as (_ & _ & V). destruct (V i j Hi Hj) as (h' & Hh' & ->). unfold first_step in *. subst h h'. now apply Q.
  - intros (i0 & Hi0 & NE) i Hi. enough (E : snd (fd_jacobianP n x fvec df F) i j = quotient n F fvec x i j h) by (rewrite E; now apply Q). revert NE. clear Q HB. intros NE.
    destruct (cols_ok n (fun s j => fj_tries n F fvec j (fst s j) 8 (fj_h (fst s j)) (fst s) (snd s)) (fun i j v => (exists i0, within n i0 /\ quotient n F fvec x i0 j (fj_h (x j)) <> 0) -> v = quotient n F fvec x i j (fj_h (x j))) x) with (len := n) (a := 1%nat) (df := df) as (_ & V1 & _); try lia.
    { intros df0 k Hk. cbn [fst snd]. destruct (tries_ok n F fvec k x 8 (fj_h (x k)) df0 ltac:(lia)) as (E & m & Hm & C & ZZ & NN). split; [exact E|]. eexists. split; [exact C|]. intros i' Hi' (i1 & Hi1 & Q). destruct m as [|m]; [cbn [pow]; now rewrite Rmult_1_r|].
      exfalso. apply Q. rewrite <- (Rmult_1_r (fj_h (x k))). change 1 with (10 ^ 0) at 1. apply ZZ; [lia|exact Hi1]. }
    pose proof (h_ok (x j)) as HO. unfold first_step in *. assert (EH : fj_h (x j) = h) by congruence. rewrite <- EH. apply V1; [exact Hi|unfold within in Hj; lia|]. exists i0. split; [exact Hi0|]. rewrite EH. unfold quotient, Rdiv. apply Rmult_integral_contrapositive_currified; [lra|apply Rinv_neq_0_compat; lra].
Qed.
(** ** an affine function of two numbers, and the square of one *)
Example C119_ex : let A := fun i j => match i, j with 1%nat, 1%nat => 2 | 1%nat, 2%nat => 3 | _, _ => 5 end in
  affine 2 (fun _ x i => A i 1%nat * x 1%nat + A i 2%nat * x 2%nat + 7) A (fun _ => 7) /\
  (forall x t, Rabs (shift x 1 t 1%nat * shift x 1 t 1%nat - x 1%nat * x 1%nat - t * (2 * x 1%nat)) <= 1 * (t * t)) /\ (forall x t, 0 < x 1%nat -> 0 < t -> shift x 1 t 1%nat * shift x 1 t 1%nat <> x 1%nat * x 1%nat).
Proof.
  cbv zeta. split; [|split].
  - intros x i Hi. cbn [sum1]. ring.
  - intros x t. unfold shift. cbn [Nat.eqb]. replace ((x 1%nat + t) * (x 1%nat + t) - x 1%nat * x 1%nat - t * (2 * x 1%nat)) with (t * t) by ring. rewrite Rabs_pos_eq; nra.
  - intros x t Hx Ht. unfold shift. cbn [Nat.eqb]. nra.
Qed.
Print Assumptions C119_quotients.
Print Assumptions C119_quotients_par.
Print Assumptions C119_affine.
Print Assumptions C119_error.
