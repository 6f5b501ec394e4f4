(** C45: solving linear systems by LU decomposition. *)
From Verif Require Import Arrays Sparse_model Mat_model Mat_spec Mat_proofs Lu_model Lu_spec Lu_proofs Lu_det.
Local Open Scope R_scope.

(** [Lu_in]: the arrays have the sizes the functions are declared for *)
Definition Lu_in (n : nat) (A vscal : list R) (p : list nat) : Prop := List.length A = (n * n)%nat /\ List.length vscal = n /\ List.length p = n.
Lemma lu_decomp_ok n A vs p par : Lu_in n A vs p -> exists r A' p' par', lu_decomp n A vs p par = Ok (r, A', p', par') /\
  (((exists j, (j < n)%nat /\ r = (Z.of_nat j + 1)%Z /\ (forall i, (i < n)%nat -> ent n A i j = 0) /\ forall c, (c < j)%nat -> exists i, (i < n)%nat /\ ent n A i c <> 0) /\ A' = A /\ p' = p /\ par' = par)
   \/ ((exists i, (i < n)%nat /\ r = (- (Z.of_nat i + 1))%Z /\ (forall c, (c < n)%nat -> ent n A i c = 0) /\ (forall k, (k < i)%nat -> exists c, (c < n)%nat /\ ent n A k c <> 0) /\ forall c, (c < n)%nat -> exists k, (k < n)%nat /\ ent n A k c <> 0) /\ A' = A /\ p' = p /\ par' = par)
   \/ (r = 0%Z /\ (forall c, (c < n)%nat -> exists k, (k < n)%nat /\ ent n A k c <> 0) /\ (forall k, (k < n)%nat -> exists c, (c < n)%nat /\ ent n A k c <> 0) /\ exists vs', luinv n (ent n A) n (A', vs', p', par'))).
Proof.
  intros (LA & Lv & Lp). unfold lu_decomp. destruct (zero_col_ok n A (ent n A) (ismat_ent n A LA)) as (zc & E1 & P1). rewrite E1. cbn [rbind]. destruct zc as [j|].
  - destruct P1 as (H1 & H2 & H3). do 4 eexists. split; [reflexivity|]. left. split; auto. exists j. auto.
  - destruct (zero_row_ok n A (ent n A) vs (ismat_ent n A LA) Lv) as (zr & vs' & E2 & P2). rewrite E2. cbn [rbind fst snd]. destruct zr as [i|].
    + destruct P2 as (H1 & H2 & H3). do 4 eexists. split; [reflexivity|]. right; left. split; auto. exists i. auto.
    + destruct P2 as (H1 & H2 & H3). destruct (crout_ok n A vs' p LA H1 H2 Lp) as ([[[A' vs2] p'] par'] & E3 & I). rewrite E3. cbn [rbind]. do 4 eexists. split; [reflexivity|]. right; right. split; auto. split; auto. split; auto. exists vs2. exact I.
Qed.

(** The decomposition never reads or writes outside its arrays.  Its return value is j+1 for the first column j of zeros; if there is none,
    -(i+1) for the first row i of zeros; in both cases A, the index array and the parity are as before.  Otherwise it is 0, and the index array
    holds row numbers with c <= p[c] < n. *)
Theorem C45_return n A vs p par : Lu_in n A vs p -> exists r A' p' par', lu_decomp n A vs p par = Ok (r, A', p', par') /\
  List.length A' = (n * n)%nat /\ List.length p' = n /\
  (forall j, (j < n)%nat -> (r = Z.of_nat j + 1)%Z <-> ((forall i, (i < n)%nat -> ent n A i j = 0) /\ forall c, (c < j)%nat -> exists i, (i < n)%nat /\ ent n A i c <> 0)) /\
  (forall i, (i < n)%nat -> (r = - (Z.of_nat i + 1))%Z <-> ((forall c, (c < n)%nat -> ent n A i c = 0) /\ (forall k, (k < i)%nat -> exists c, (c < n)%nat /\ ent n A k c <> 0) /\ forall c, (c < n)%nat -> exists k, (k < n)%nat /\ ent n A k c <> 0)) /\
  (- Z.of_nat n <= r <= Z.of_nat n)%Z /\
  (r <> 0%Z -> A' = A /\ p' = p /\ par' = par) /\
  (r = 0%Z -> forall c, (c < n)%nat -> (c <= nth c p' O < n)%nat).
Proof.
  intros Hin. destruct (lu_decomp_ok n A vs p par Hin) as (r & A' & p' & par' & E & [((j & Hj & -> & Z & NZ) & -> & -> & ->)|[((i & Hi & -> & Z & NZ1 & NZ2) & -> & -> & ->)|(-> & NC & NR & vs' & I)]]); do 4 eexists; (split; [exact E|]); destruct Hin as (LA & Lv & Lp).
  - split; auto. split; auto. split; [|split; [|split; [lia|split; [auto|lia]]]].
    + intros j' Hj'. split. * intros Q. replace j' with j by lia. auto. * intros [Z' NZ']. destruct (Nat.lt_trichotomy j j') as [L|[->|L]]; auto. -- destruct (NZ' j L) as (i & Hi & Q). exfalso. apply Q, Z, Hi. -- destruct (NZ j' L) as (i & Hi & Q). exfalso. apply Q, Z', Hi.
    + intros i Hi. split; [lia|]. intros (_ & _ & Q). destruct (Q j Hj) as (k & Hk & N). exfalso. apply N, Z, Hk.
  - split; auto. split; auto. split; [|split; [|split; [lia|split; [auto|lia]]]].
    + intros j' Hj'. split; [lia|]. intros [Z' _]. destruct (NZ2 j' Hj') as (k & Hk & N). exfalso. apply N, Z', Hk.
    + intros i' Hi'. split. * intros Q. replace i' with i by lia. auto. * intros (Z' & NZ' & _). destruct (Nat.lt_trichotomy i i') as [L|[->|L]]; auto. -- destruct (NZ' i L) as (c & Hc & Q). exfalso. apply Q, Z, Hc. -- destruct (NZ1 i' L) as (c & Hc & Q). exfalso. apply Q, Z', Hc.
  - destruct I as [K MA Lv' Pv Lp' Rp Sp DN F]. cbn [fst snd] in *. split; [exact (proj1 MA)|]. split; auto. split; [|split; [|split; [lia|split; [lia|auto]]]].
    + intros j Hj. split; [lia|]. intros [Z _]. destruct (NC j Hj) as (k & Hk & N). exfalso. apply N, Z, Hk.
    + intros i Hi. split; [lia|]. intros [Z _]. destruct (NR i Hi) as (c & Hc & N). exfalso. apply N, Z, Hc.
Qed.
Lemma invertible_decomp n A vs p par : Lu_in n A vs p -> invertible n A -> exists A' p' par' vs' K, lu_decomp n A vs p par = Ok (0%Z, A', p', par') /\ luinv n (ent n A) n (A', vs', p', par') /\
  ismat n A' K /\ List.length p' = n /\ (forall c, (c < n)%nat -> (c <= pf p' c < n)%nat) /\ par' = sgn (pf p') n /\ factored n (ent n A) K (sig (pf p') n) n.
Proof.
  intros Hin Inv. assert (NK := invertible_no_kernel n A Inv). destruct (lu_decomp_ok n A vs p par Hin) as (r & A' & p' & par' & E & [((j & Hj & -> & Z & NZ) & -> & -> & ->)|[((i & Hi & -> & Z & NZ1 & NZ2) & -> & -> & ->)|(-> & NC & NR & vs' & I)]]).
  - exfalso. apply NK. exists (fun c => if (c =? j)%nat then 1 else 0). split. + exists j. rewrite Nat.eqb_refl. split; auto; lra. + intros i Hi. apply Sig_zero. intros c Hc. destruct (Nat.eqb_spec c j) as [->|]; [rewrite Z by auto|]; ring.
  - exfalso. destruct Inv as [B HB]. destruct (HB i i Hi Hi) as [Q _]. rewrite Nat.eqb_refl, Sig_zero in Q; [lra|]. intros k Hk. rewrite Z by auto. ring.
  - assert (I' := I). destruct I as [K MA Lv' Pv Lp' Rp Sp DN F]. cbn [fst snd] in *. destruct F as [F|F]; [contradiction|]. exists A', p', par', vs', K. auto 10.
Qed.
(** For every invertible matrix and every right-hand side: the decomposition succeeds, and the solver then overwrites b with the solution of A x = b. *)
Theorem C45_solve n A vs p par : Lu_in n A vs p -> invertible n A -> exists A' p' par', lu_decomp n A vs p par = Ok (0%Z, A', p', par') /\
  forall b, List.length b = n -> exists x, lu_solve n A' p' b = Ok x /\ List.length x = n /\ forall i, (i < n)%nat -> times n A x i = nth i b 0.
Proof.
  intros Hin Inv. destruct (invertible_decomp n A vs p par Hin Inv) as (A' & p' & par' & vs' & K & E & _ & M & Lp & Rp & _ & F). exists A', p', par'. split; auto. intros b Lb. apply (lu_solve_ok n A A' K p' b); auto. apply Hin.
Qed.
(** A nonzero return value is only given for a matrix without inverse. *)
Theorem C45_code_singular n A vs p par r A' p' par' : Lu_in n A vs p -> lu_decomp n A vs p par = Ok (r, A', p', par') -> r <> 0%Z -> ~ invertible n A.
Proof. intros Hin E N Inv. destruct (invertible_decomp n A vs p par Hin Inv) as (? & ? & ? & ? & ? & E' & _). rewrite E in E'. injection E' as -> _ _ _. auto. Qed.
(** The stored factors: unit lower triangle L and upper triangle U of A' multiply to A with rows permuted. *)
Theorem C45_factors n A vs p par : Lu_in n A vs p -> invertible n A -> exists A' p' par' s, lu_decomp n A vs p par = Ok (0%Z, A', p', par') /\
  (forall i, (i < n)%nat -> (s i < n)%nat) /\ (forall i k, s i = s k -> i = k) /\
  forall i j, (i < n)%nat -> (j < n)%nat ->
    Sig n (fun k => (if (k <? i)%nat then ent n A' i k else if (k =? i)%nat then 1 else 0) * (if (k <=? j)%nat then ent n A' k j else 0)) = ent n A (s i) j.
Proof.
  intros Hin Inv. destruct (invertible_decomp n A vs p par Hin Inv) as (A' & p' & par' & vs' & K & E & _ & M & Lp & Rp & _ & F). exists A', p', par', (sig (pf p') n). split; auto. split. { intros i Hi. now apply sig_lt. } split. { intros i k. apply sig_inj. }
  intros i j Hi Hj. destruct F as [_ FL _]. rewrite <- (FL i j) by auto. destruct M as [_ V].
  assert (EE : forall g, Sig n g = Sig (S j + (n - S j)) g) by (intros; f_equal; lia). rewrite EE, Sig_add, (Sig_zero (n - S j)). 2:{ intros k Hk. destruct (Nat.leb_spec (S j + k) j); [lia|ring]. }
  rewrite Rplus_0_r. apply Sig_ext. intros k Hk. destruct (Nat.leb_spec k j); [|lia]. unfold ent, Lf. rewrite (V k j) by lia. f_equal. destruct (Nat.ltb_spec k i); auto. apply V; lia.
Qed.
Lemma lu_det_ok n A K par : ismat n A K -> lu_det n A par = Ok (IZR par * prodd n (fun i => K i i)).
Proof.
  intros M. unfold lu_det. destruct (for_nat_inv (fun i d => d = IZR par * prodd i (fun i => K i i)) (fun i det => do x <- rdm n A i i; Ok (det * x)) 0 n (IZR par)) as (d & E & ->); auto.
  - lia. - cbn. ring.
  - intros i d Hi ->. rewrite (rdm_ok n A K) by (auto; lia). cbn [rbind]. eexists. split; [reflexivity|]. replace (i + 1)%nat with (S i) by lia. cbn [prodd]. ring.
Qed.
(** The determinant function returns the determinant of an invertible matrix. *)
Theorem C58_det n A vs p par : Lu_in n A vs p -> invertible n A -> exists A' p' par', lu_decomp n A vs p par = Ok (0%Z, A', p', par') /\ lu_det n A' par' = Ok (det n (ent n A)).
Proof.
  intros Hin Inv. destruct (invertible_decomp n A vs p par Hin Inv) as (A' & p' & par' & vs' & K & E & _ & M & Lp & Rp & -> & F). exists A', p'. eexists. split; [exact E|]. rewrite (lu_det_ok n A' K) by auto. f_equal. symmetry. now apply det_factored.
Qed.
(** Beyond that it must not be trusted: after a successful decomposition the value is never zero, although the determinant of a matrix without inverse is. *)
Theorem C58_det_never_zero n A vs p par A' p' par' : Lu_in n A vs p -> lu_decomp n A vs p par = Ok (0%Z, A', p', par') -> exists d, lu_det n A' par' = Ok d /\ d <> 0.
Proof.
  intros Hin E. destruct (lu_decomp_ok n A vs p par Hin) as (r & A2 & p2 & par2 & E2 & H). rewrite E in E2. injection E2 as <- <- <- <-. destruct H as [((j & Hj & Q & _) & _)|[((i & Hi & Q & _) & _)|(_ & NC & NR & vs' & I)]]; [lia|lia|].
  destruct I as [K MA Lv' Pv Lp' Rp Sp DN F]. cbn [fst snd] in *. rewrite (lu_det_ok n A' K) by auto. eexists. split; [reflexivity|]. subst par'. apply Rmult_integral_contrapositive_currified.
  - intros Q. assert (S2 := sgn_sq (pf p') n). rewrite Q in S2. lra.
  - clear - DN. induction n as [|m IH]; cbn [prodd]; [lra|]. apply Rmult_integral_contrapositive_currified; auto.
Qed.
Theorem C58_det_refuted : exists A vs p A' p' par' d, Lu_in 2 A vs p /\ lu_decomp 2 A vs p 1 = Ok (0%Z, A', p', par') /\ lu_det 2 A' par' = Ok d /\ d <> det 2 (ent 2 A).
Proof.
  assert (Hin : Lu_in 2 [1; 1; 1; 1] [0; 0] [0; 0]%nat) by (repeat split; reflexivity).
  destruct (C45_return _ _ _ _ 1%Z Hin) as (r & A' & p' & par' & E & _ & _ & HC & HR & Rng & _).
  assert (En : forall i j, (i < 2)%nat -> (j < 2)%nat -> ent 2 [1; 1; 1; 1] i j = 1). { intros i j Hi Hj. destruct i as [|[|?]], j as [|[|?]]; try lia; reflexivity. }
  assert (r = 0%Z). { assert (N1 : r <> 1%Z). { intros ->. destruct (proj1 (HC O ltac:(lia)) eq_refl) as [Q _]. specialize (Q O ltac:(lia)). rewrite En in Q by lia. lra. }
    assert (N2 : r <> 2%Z). { intros ->. destruct (proj1 (HC 1%nat ltac:(lia)) eq_refl) as [Q _]. specialize (Q O ltac:(lia)). rewrite En in Q by lia. lra. }
    assert (N3 : r <> (-1)%Z). { intros ->. destruct (proj1 (HR O ltac:(lia)) eq_refl) as [Q _]. specialize (Q O ltac:(lia)). rewrite En in Q by lia. lra. }
    assert (N4 : r <> (-2)%Z). { intros ->. destruct (proj1 (HR 1%nat ltac:(lia)) eq_refl) as [Q _]. specialize (Q O ltac:(lia)). rewrite En in Q by lia. lra. } lia. }
  subst r. destruct (C58_det_never_zero _ _ _ _ _ _ _ _ Hin E) as (d & Ed & Nd). exists [1; 1; 1; 1], [0; 0], [0; 0]%nat, A', p', par', d. repeat split; auto.
  assert (Z : det 2 (ent 2 [1; 1; 1; 1]) = 0). { apply (det_equal_rows 2 _ 0 1); try lia. intros c Hc. rewrite !En by lia. reflexivity. } rewrite Z. auto.
Qed.
(** hypotheses are met by a matrix that needs pivoting *)
Example C45_example : Lu_in 3 [0; 2; 0; 1; 0; 0; 0; 0; 4] [0; 0; 0] [0; 0; 0]%nat /\ invertible 3 [0; 2; 0; 1; 0; 0; 0; 0; 4] /\ det 3 (ent 3 [0; 2; 0; 1; 0; 0; 0; 0; 4]) = -8.
Proof.
  split; [repeat split; reflexivity|]. split.
  - exists (fun i j => nth (3 * i + j) [0; 1; 0; / 2; 0; 0; 0; 0; / 4] 0). intros i j Hi Hj. destruct i as [|[|[|?]]], j as [|[|[|?]]]; try lia; unfold ent; cbn -[Rmult Rplus]; split; lra.
  - unfold ent; cbn -[Rmult Rplus pow]. lra.
Qed.
Print Assumptions C45_return.
Print Assumptions C45_solve.
Print Assumptions C45_code_singular.
Print Assumptions C45_factors.
Print Assumptions C58_det.
Print Assumptions C58_det_never_zero.
Print Assumptions C58_det_refuted.
