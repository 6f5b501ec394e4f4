(** Proofs about the fast transforms: real data (numrec_realft). *)
From Verif Require Import Rutil Loops Sparse_model Rsum Trig Fft_model.
From Verif Require Export Fft_proofs.
Local Open Scope R_scope.

Lemma CSig_conj n f : Cconj (CSig n f) = CSig n (fun i => Cconj (f i)).
Proof. unfold CSig, Cconj. cbn [fst snd]. f_equal. rewrite <- Sig_opp. reflexivity. Qed.
Lemma Cconj_plus a b : Cconj (Cplus a b) = Cplus (Cconj a) (Cconj b). Proof. apply C_eq; simpl; ring. Qed.
Lemma Cconj_mult a b : Cconj (Cmult a b) = Cmult (Cconj a) (Cconj b). Proof. apply C_eq; simpl; ring. Qed.
Lemma Cconj_cis t : Cconj (cis t) = cis (- t). Proof. unfold Cconj, cis. simpl. now rewrite cos_neg, sin_neg. Qed.
Lemma cis_inv t : Cmult (cis t) (cis (- t)) = RtoC 1. Proof. rewrite <- cis_plus, Rplus_opp_r. apply cis_0. Qed.

(** ** the loop of numrec_realft *)
Local Open Scope C_scope.
Definition h1_of (M : nat) (z : nat -> C) (k : nat) : C := (1 / 2)%R * (z k + Cconj (z (M - k)%nat)).
Definition h2_of (c2 : R) (M : nat) (z : nat -> C) (k : nat) : C := ((- c2 * (snd (z k) + snd (z (M - k)%nat)))%R, (c2 * (fst (z k) - fst (z (M - k)%nat)))%R).
Definition RF (c2 theta : R) (M : nat) (z : nat -> C) (k : nat) : C := h1_of M z k + wfac theta k * h2_of c2 M z k.
Lemma rbody_ok L c2 wpRe wpIm M k z w : (1 <= k)%nat -> (2 * k < M)%nat -> (2 * M <= L)%nat ->
  rbody 0.5 c2 wpRe wpIm (2 * M) (k + 1) (tabl L (flat z), w) =
  Ok (tabl L (flat (cset (cset z k (h1_of M z k + w * h2_of c2 M z k)) (M - k) (Cconj (h1_of M z k - w * h2_of c2 M z k)))), turn wpRe wpIm w).
Proof.
  intros Hk HkM HL. unfold rbody. destruct w as [wr wi]. cbv zeta. rewrite !rd1_tabl by lia. cbn [rbind]. rewrite wr1_tabl by lia. cbn [rbind]. rewrite wr1_tabl by lia. cbn [rbind].
  rewrite wr1_tabl by lia. cbn [rbind]. rewrite wr1_tabl by lia. cbn [rbind]. do 2 f_equal. apply tabl_ext. intros i Hi. rewrite flat_cset2 by lia.
  replace (k + 1 + (k + 1) - 1 - 1)%nat with (2 * k)%nat by lia. replace (1 + (k + 1 + (k + 1) - 1) - 1)%nat with (2 * k + 1)%nat by lia.
  replace (2 * M + 3 - (1 + (k + 1 + (k + 1) - 1)) - 1)%nat with (2 * (M - k))%nat by lia.
  replace (1 + (2 * M + 3 - (1 + (k + 1 + (k + 1) - 1))) - 1)%nat with (2 * (M - k) + 1)%nat by lia.
  rewrite !flat_even, !flat_odd. unfold h1_of, h2_of, Cconj, Cminus, Cplus, Copp, Cmult, RtoC. cbn [fst snd].
  set (A2 := (2 * k + 1)%nat). set (A1 := (2 * k)%nat). set (B2 := (2 * (M - k) + 1)%nat). set (B1 := (2 * (M - k))%nat).
  unfold fset. repeat match goal with |- context [Nat.eqb ?x ?y] => destruct (Nat.eqb_spec x y) end; try (unfold A1, A2, B1, B2 in *; lia); lra.
Qed.
Lemma RF_other c2 theta M z k : cis (INR M * theta) = RtoC (-1) -> (k <= M)%nat -> RF c2 theta M z (M - k) = Cconj (h1_of M z k - wfac theta k * h2_of c2 M z k).
Proof.
  intros HM Hk. unfold RF, h1_of, h2_of. replace (M - (M - k))%nat with k by lia.
  assert (W : wfac theta (M - k) = - Cconj (wfac theta k)).
  { unfold wfac. rewrite minus_INR by auto. replace ((INR M - INR k) * theta)%R with (INR M * theta + - (INR k * theta))%R by ring. rewrite cis_plus, HM, Cconj_cis. apply C_eq; simpl; ring. }
  rewrite W. destruct (wfac theta k) as [wr wi]. destruct (z k) as [a b]. destruct (z (M - k)%nat) as [c d]. apply C_eq; simpl; ring.
Qed.
Definition rpart (c2 theta : R) (M K : nat) (z : nat -> C) (x : nat) : C :=
  if (((1 <=? x) && (x <? K)) || ((x <? M) && (M - x <? K)))%nat then RF c2 theta M z x else z x.
Lemma rpart_step c2 theta M k z x : cis (INR M * theta) = RtoC (-1) -> (1 <= k)%nat -> (2 * k < M)%nat ->
  let zk := rpart c2 theta M k z in
  cset (cset zk k (h1_of M zk k + wfac theta k * h2_of c2 M zk k)) (M - k) (Cconj (h1_of M zk k - wfac theta k * h2_of c2 M zk k)) x = rpart c2 theta M (k + 1) z x.
Proof.
  intros HM Hk HkM zk.
  assert (Z1 : zk k = z k). { unfold zk, rpart. destruct (Nat.ltb_spec k k); [lia|]. destruct (Nat.ltb_spec (M - k) k); [lia|]. now rewrite !andb_false_r. }
  assert (Z2 : zk (M - k)%nat = z (M - k)%nat). { unfold zk, rpart. destruct (Nat.ltb_spec (M - k) k); [lia|]. destruct (Nat.ltb_spec (M - (M - k)) k); [lia|]. now rewrite !andb_false_r. }
  assert (H1 : h1_of M zk k = h1_of M z k) by (unfold h1_of; now rewrite Z1, Z2). assert (H2 : h2_of c2 M zk k = h2_of c2 M z k) by (unfold h2_of; now rewrite Z1, Z2).
  rewrite H1, H2. unfold cset. destruct (Nat.eqb_spec x (M - k)) as [->|N1].
  - rewrite <- RF_other by (auto; lia). unfold rpart. destruct (Nat.ltb_spec (M - k) M); [|lia]. destruct (Nat.ltb_spec (M - (M - k)) (k + 1)); [|lia]. now rewrite orb_true_r.
  - destruct (Nat.eqb_spec x k) as [->|N2].
    + unfold rpart. destruct (Nat.leb_spec 1 k); [|lia]. destruct (Nat.ltb_spec k (k + 1)); [|lia]. reflexivity.
    + unfold zk, rpart. destruct (Nat.leb_spec 1 x), (Nat.ltb_spec x k), (Nat.ltb_spec x (k + 1)), (Nat.ltb_spec x M), (Nat.ltb_spec (M - x) k), (Nat.ltb_spec (M - x) (k + 1)); cbn [andb orb]; auto; lia.
Qed.
Definition rdone (c2 theta : R) (M : nat) (z : nat -> C) (x : nat) : C := if ((1 <=? x) && (x <? M))%nat then RF c2 theta M z x else z x.
Lemma RF_middle c2 theta M z k : (M = 2 * k)%nat -> h2_of c2 M z k = ((- 2 * c2 * snd (z k))%R, 0%R) -> Cmult (wfac theta k) ((- 2 * c2)%R, 0%R) = (0%R, 1%R) -> RF c2 theta M z k = z k.
Proof.
  intros -> H2 HW. unfold RF. rewrite H2. replace ((- 2 * c2 * snd (z k))%R, 0%R) with (((- 2 * c2)%R, 0%R) * RtoC (snd (z k))) by (apply C_eq; simpl; ring).
  rewrite Cmult_assoc, HW. unfold h1_of. replace (2 * k - k)%nat with k by lia. destruct (z k) as [a b]. apply C_eq; simpl; lra.
Qed.
Lemma rloop_ok L p c2 theta z : let M := (2 ^ p)%nat in (c2 = - (1 / 2) /\ theta = PI / INR M \/ c2 = 1 / 2 /\ theta = - (PI / INR M))%R -> (2 * M <= L)%nat ->
  exists w, for_nat 2 (2 * M / 4 + 1) (rbody 0.5 c2 (cos theta - 1) (sin theta) (2 * M)) (tabl L (flat z), cis theta) = Ok (tabl L (flat (rdone c2 theta M z)), w).
Proof.
  intros M Hc HL. assert (M0 : (0 < M)%nat) by apply pow2_pos. assert (MR : INR M <> 0%R) by (apply not_0_INR; lia).
  assert (HM : cis (INR M * theta) = RtoC (-1)).
  { destruct Hc as [[_ ->]|[_ ->]]; [rewrite <- (cis_half 1) by (now left)|rewrite <- (cis_half (-1)) by (now right)]; f_equal; field; auto. }
  destruct p as [|p].
  - exists (cis theta). assert (M1 : M = 1%nat) by reflexivity. rewrite M1. cbn. do 2 f_equal. apply tabl_ext. intros i Hi. apply flat_ext. intros x. unfold rdone.
    destruct (Nat.leb_spec 1 x), (Nat.ltb_spec x 1); auto; lia.
  - assert (exists K, M = 2 * K /\ 1 <= K)%nat as (K & MK & HK). { exists (2 ^ p)%nat. unfold M. rewrite Nat.pow_succ_r'. pose proof (pow2_pos p). lia. }
    exists (wfac theta K). replace (2 * M / 4 + 1)%nat with (K + 1)%nat. 2:{ rewrite MK. replace (2 * (2 * K))%nat with (K * 4)%nat by lia. rewrite Nat.div_mul by lia. auto. }
    set (F := fun i : nat => (tabl L (flat (rpart c2 theta M (i - 1) z)), wfac theta (i - 1))).
    assert (F0 : (tabl L (flat z), cis theta) = F 2%nat).
    { unfold F. f_equal. - apply tabl_ext. intros i Hi. apply flat_ext. intros x. unfold rpart. change (2 - 1)%nat with 1%nat. destruct (Nat.leb_spec 1 x), (Nat.ltb_spec x 1), (Nat.ltb_spec x M), (Nat.ltb_spec (M - x) 1); cbn [andb orb]; auto; lia.
      - unfold wfac. change (2 - 1)%nat with 1%nat. simpl INR. f_equal. ring. }
    rewrite F0. rewrite (for_nat_eq F); [|lia|].
    + unfold F. do 2 f_equal; [|now rewrite Nat.add_sub]. apply tabl_ext. intros i Hi. apply flat_ext. intros x. unfold rpart, rdone. rewrite Nat.add_sub.
      destruct (Nat.leb_spec 1 x), (Nat.ltb_spec x K), (Nat.ltb_spec x M), (Nat.ltb_spec (M - x) K); cbn [andb orb]; auto; try lia.
      assert (x = K) by lia. subst x. symmetry. apply RF_middle; auto.
      * unfold h2_of. replace (M - K)%nat with K by lia. f_equal; ring.
      * assert (KR : INR M = (2 * INR K)%R) by (rewrite MK, mult_INR; simpl; ring). assert (INR K <> 0%R) by (apply not_0_INR; lia).
        unfold wfac. destruct Hc as [[-> ->]|[-> ->]]; rewrite KR.
        -- replace (INR K * (PI / (2 * INR K)))%R with (PI / 2)%R by (field; auto). unfold cis. rewrite cos_PI2, sin_PI2. apply C_eq; simpl; lra.
        -- replace (INR K * - (PI / (2 * INR K)))%R with (- (PI / 2))%R by (field; auto). unfold cis. rewrite cos_neg, sin_neg, cos_PI2, sin_PI2. apply C_eq; simpl; lra.
    + intros i Hi. unfold F. replace i with (i - 1 + 1)%nat at 1 by lia. rewrite rbody_ok by lia. do 2 f_equal.
      * apply tabl_ext. intros j Hj. apply flat_ext. intros x. rewrite rpart_step by (auto; lia). f_equal. lia.
      * unfold wfac. rewrite turn_gen. f_equal. replace (i + 1 - 1)%nat with (i - 1 + 1)%nat by lia. rewrite plus_INR. simpl. ring.
Qed.
Local Close Scope C_scope.

(** ** the transform of real data *)
Definition rdft (N : nat) (f : nat -> R) (k : nat) : C := dft 1 N (fun j => RtoC (f j)) k.
(** the layout of the result: element 0 holds the (real) transforms number 0 and N/2 *)
Definition packed (N : nat) (f : nat -> R) (x : nat) : C :=
  if (x =? 0)%nat then (fst (rdft N f 0), fst (rdft N f (N / 2))) else if (x <? N / 2)%nat then rdft N f x else unflat f x.
Lemma dft_real_split M f k : (0 < M)%nat -> rdft (2 * M) f k =
  Cplus (CSig M (fun r => Cmult (RtoC (f (2 * r)%nat)) (cis (2 * PI * INR r * INR k / INR M))))
        (Cmult (cis (PI * INR k / INR M)) (CSig M (fun r => Cmult (RtoC (f (2 * r + 1)%nat)) (cis (2 * PI * INR r * INR k / INR M))))).
Proof.
  intros HM. assert (INR M <> 0) by (apply not_0_INR; lia). unfold rdft, dft. rewrite CSig_pairs. f_equal.
  - apply CSig_ext. intros r Hr. f_equal. f_equal. rewrite !mult_INR. simpl. field. auto.
  - rewrite <- CSig_scal. apply CSig_ext. intros r Hr.
    replace (1 * (2 * PI * INR (2 * r + 1) * INR k / INR (2 * M))) with (PI * INR k / INR M + 2 * PI * INR r * INR k / INR M) by (rewrite plus_INR, !mult_INR; simpl; field; auto).
    rewrite cis_plus. ring.
Qed.
Lemma conj_dft M f k : (0 < M)%nat -> (k <= M)%nat -> Cconj (dft 1 M (unflat f) (M - k)) = CSig M (fun r => Cmult (Cconj (unflat f r)) (cis (2 * PI * INR r * INR k / INR M))).
Proof.
  intros HM Hk. assert (INR M <> 0) by (apply not_0_INR; lia). unfold dft. rewrite CSig_conj. apply CSig_ext. intros r Hr. rewrite Cconj_mult, Cconj_cis. f_equal.
  rewrite <- (cis_period (-1) (2 * PI * INR r * INR k / INR M) r) by (now right). f_equal. rewrite minus_INR by auto. field. auto.
Qed.
Lemma dft_unflat M f k : dft 1 M (unflat f) k = CSig M (fun r => Cmult (unflat f r) (cis (2 * PI * INR r * INR k / INR M))).
Proof. unfold dft. apply CSig_ext. intros. f_equal. f_equal. ring. Qed.
(** even and odd parts from the complex transform of the pairs *)
Lemma parts_of M f k : (0 < M)%nat -> (k <= M)%nat -> let Z := dft 1 M (unflat f) in
  CSig M (fun r => Cmult (RtoC (f (2 * r)%nat)) (cis (2 * PI * INR r * INR k / INR M))) = Cmult (RtoC (1 / 2)) (Cplus (Z k) (Cconj (Z (M - k)%nat))) /\
  CSig M (fun r => Cmult (RtoC (f (2 * r + 1)%nat)) (cis (2 * PI * INR r * INR k / INR M))) = Cmult (0, - (1 / 2)) (Cminus (Z k) (Cconj (Z (M - k)%nat))).
Proof.
  intros HM Hk Z. unfold Z. rewrite conj_dft, dft_unflat by auto. unfold Cminus. split.
  - rewrite Cmult_plus_distr_l, <- !CSig_scal. unfold CSig, Cplus. cbn [fst snd]. apply C_eq; cbn [fst snd]; rewrite <- Sig_plus; apply Sig_ext; intros; simpl; lra.
  - rewrite Cmult_plus_distr_l, <- CSig_opp, <- !CSig_scal. unfold CSig, Cplus. cbn [fst snd]. apply C_eq; cbn [fst snd]; rewrite <- Sig_plus; apply Sig_ext; intros; simpl; lra.
Qed.
Lemma RF_fwd M f k : (0 < M)%nat -> (k <= M)%nat -> RF (- (1 / 2)) (PI / INR M) M (dft 1 M (unflat f)) k = rdft (2 * M) f k.
Proof.
  intros HM Hk. rewrite dft_real_split by auto. destruct (parts_of M f k HM Hk) as [E1 E2]. rewrite E1, E2. unfold RF, wfac. f_equal.
  replace (PI * INR k / INR M) with (INR k * (PI / INR M)) by (unfold Rdiv; ring). f_equal. unfold h2_of. destruct (dft 1 M (unflat f) k), (dft 1 M (unflat f) (M - k)). apply C_eq; simpl; lra.
Qed.
Lemma rdft_ends M f : (0 < M)%nat -> let Z := dft 1 M (unflat f) in fst (rdft (2 * M) f 0) = fst (Z 0%nat) + snd (Z 0%nat) /\ fst (rdft (2 * M) f M) = fst (Z 0%nat) - snd (Z 0%nat).
Proof.
  intros HM Z. assert (INR M <> 0) by (apply not_0_INR; lia). unfold Z. rewrite !dft_real_split, dft_unflat by auto.
  assert (W : forall r k, (k = 0 \/ k = M)%nat -> cis (2 * PI * INR r * INR k / INR M) = RtoC 1).
  { intros r k Hk. rewrite <- cis_0. destruct Hk as [-> | ->]; [f_equal; simpl; field; auto|]. rewrite <- (cis_period 1 0 r) by (now left). f_equal. field. auto. }
  split.
  - replace (PI * INR 0 / INR M) with 0 by (simpl; field; auto). rewrite cis_0. unfold CSig, Cplus, Cmult. cbn [fst snd RtoC]. rewrite Rmult_1_l, Rmult_0_l, Rminus_0_r. f_equal;
      apply Sig_ext; intros r Hr; rewrite W by auto; simpl; ring.
  - replace (PI * INR M / INR M) with (1 * PI) by (field; auto). rewrite cis_half by (now left). unfold CSig, Cplus, Cmult. cbn [fst snd RtoC]. rewrite Rmult_0_l, Rminus_0_r. unfold Rminus. f_equal.
    + apply Sig_ext. intros r Hr. rewrite !W by auto. simpl. ring.
    + rewrite <- Sig_scal, <- Sig_opp. apply Sig_ext. intros r Hr. rewrite !W by auto. simpl. ring.
Qed.
Lemma realft_fwd L p f : let N := (2 * 2 ^ p)%nat in (N <= L)%nat -> numrec_realft (tabl L f) N true = Ok (tabl L (flat (packed N f))).
Proof.
  intros N HL. set (M := (2 ^ p)%nat) in *. assert (M0 : (0 < M)%nat) by apply pow2_pos. assert (N2 : (N / 2 = M)%nat) by (unfold N; apply half_even). unfold numrec_realft. rewrite N2.
  rewrite (tabl_ext L f (flat (unflat f))) by (intros; now rewrite flat_unflat). assert (E1 : numrec_four1 (tabl L (flat (unflat f))) M 1 = Ok (tabl L (flat (dfts 1 M (unflat f))))) by (apply four1_ok; [now left|auto]). rewrite E1. cbn [rbind]. rewrite wp_ok. cbv beta iota zeta.
  set (theta := PI / INR M). set (Z := dfts 1 M (unflat f)).
  replace (1 + (cos theta - 1), sin theta) with (cis theta) by (unfold cis; f_equal; ring). replace (- 0.5) with (- (1 / 2)) by lra.
  destruct (rloop_ok L p (- (1 / 2)) theta Z) as (w & E); [left; split; auto|auto|]. fold M N in E. unfold C in E. rewrite E. cbn [rbind fst].
  rewrite !rd1_tabl by lia. cbn [rbind]. rewrite wr1_tabl by lia. cbn [rbind]. rewrite rd1_tabl by lia. cbn [rbind]. rewrite wr1_tabl by lia. f_equal. apply tabl_ext. intros i Hi.
  change (1 - 1)%nat with 0%nat. change (2 - 1)%nat with 1%nat.
  set (G := rdone (- (1 / 2)) theta M Z). assert (G0 : G 0%nat = dft 1 M (unflat f) 0). { unfold G, rdone. cbn [Nat.leb andb]. unfold Z, dfts. destruct (Nat.ltb_spec 0 M); [auto|lia]. }
  destruct (rdft_ends M f M0) as [X0 X1].
  transitivity (flat (cset G 0 (fst (rdft N f 0), fst (rdft N f M))) i).
  - assert (Q0 : flat G 0 = fst (dft 1 M (unflat f) 0)) by (rewrite <- G0; apply (flat_even G 0)). assert (Q1 : flat G 1 = snd (dft 1 M (unflat f) 0)) by (rewrite <- G0; apply (flat_odd G 0)).
    rewrite flat_cset. change (2 * 0)%nat with 0%nat. change (0 + 1)%nat with 1%nat. fold N in X0, X1. cbn [fst snd]. rewrite X0, X1. unfold fset. cbn [Nat.eqb]. rewrite Q0, Q1. reflexivity.
  - apply flat_ext. intros x. unfold cset, packed. rewrite N2. destruct (Nat.eqb_spec x 0); auto. unfold G, rdone. destruct (Nat.leb_spec 1 x); [|lia].
    destruct (Nat.ltb_spec x M); cbn [andb].
    + unfold N. rewrite <- RF_fwd by lia. fold theta. unfold RF, h1_of, h2_of, Z, dfts. destruct (Nat.ltb_spec x M); [|lia]. destruct (Nat.ltb_spec (M - x) M); [auto|lia].
    + unfold Z, dfts. destruct (Nat.ltb_spec x M); [lia|auto].
Qed.

(** ** back *)
Lemma orth_cis M l j : (l < M)%nat -> (j < M)%nat -> CSig M (fun k => cis (2 * PI * INR k * (INR l - INR j) / INR M)) = if (l =? j)%nat then RtoC (INR M) else RtoC 0.
Proof.
  intros Hl Hj. assert (INR M <> 0) by (apply not_0_INR; lia). destruct (Nat.eqb_spec l j) as [->|N].
  - rewrite (CSig_ext M _ (fun _ => RtoC 1)). { unfold CSig. cbn [fst snd RtoC]. rewrite !Sig_const. apply C_eq; simpl; ring. }
    intros k Hk. rewrite <- cis_0. f_equal. field. auto.
  - destruct (le_lt_dec l j).
    + rewrite (CSig_ext M _ (fun k => Cconj (cis (0 + INR k * (2 * INR (j - l) * PI / INR M))))).
      * rewrite <- CSig_conj. unfold CSig, cis. cbn [fst snd]. rewrite period_cos, period_sin by lia. apply C_eq; simpl; ring.
      * intros k Hk. rewrite Cconj_cis. f_equal. rewrite minus_INR by lia. field. auto.
    + rewrite (CSig_ext M _ (fun k => cis (0 + INR k * (2 * INR (l - j) * PI / INR M)))).
      * unfold CSig, cis. cbn [fst snd]. rewrite period_cos, period_sin by lia. apply C_eq; simpl; ring.
      * intros k Hk. f_equal. rewrite minus_INR by lia. field. auto.
Qed.
Lemma CSig_single n k f : (k < n)%nat -> (forall i, (i < n)%nat -> i <> k -> f i = RtoC 0) -> CSig n f = f k.
Proof.
  intros Hk H. unfold CSig. apply C_eq; cbn [fst snd]; apply Sig_single with (f := fun i => _ (f i)); auto; intros i Hi Ni; now rewrite H.
Qed.
Lemma dft_inverse M y j : (j < M)%nat -> dft (-1) M (dft 1 M y) j = Cmult (RtoC (INR M)) (y j).
Proof.
  intros Hj. unfold dft at 1. assert (INR M <> 0) by (apply not_0_INR; lia).
  rewrite (CSig_ext M _ (fun k => CSig M (fun l => Cmult (y l) (cis (2 * PI * INR k * (INR l - INR j) / INR M))))).
  - rewrite CSig_swap. rewrite (CSig_ext M _ (fun l => Cmult (y l) (if (l =? j)%nat then RtoC (INR M) else RtoC 0))).
    + rewrite (CSig_single M j); auto. * rewrite Nat.eqb_refl. ring. * intros i Hi N. destruct (Nat.eqb_spec i j); [lia|]. ring.
    + intros l Hl. rewrite CSig_scal, orth_cis by auto. reflexivity.
  - intros k Hk. unfold dft. rewrite <- CSig_scal_r. apply CSig_ext. intros l Hl. rewrite <- Cmult_assoc, <- cis_plus. f_equal. f_equal. field. auto.
Qed.
Lemma RF_scal c2 theta M z g k : RF c2 theta M (fun x => Cmult (RtoC g) (z x)) k = Cmult (RtoC g) (RF c2 theta M z k).
Proof. unfold RF, h1_of, h2_of. destruct (z k), (z (M - k)%nat), (wfac theta k). apply C_eq; simpl; ring. Qed.
Lemma RF_inv M f k : (0 < M)%nat -> (1 <= k < M)%nat -> RF (1 / 2) (- (PI / INR M)) M (rdft (2 * M) f) k = dft 1 M (unflat f) k.
Proof.
  intros HM Hk. set (theta := PI / INR M). set (Z := dft 1 M (unflat f)).
  assert (HMp : cis (INR M * theta) = RtoC (-1)). { unfold theta. replace (INR M * (PI / INR M)) with (1 * PI) by (field; apply not_0_INR; lia). apply cis_half. now left. }
  assert (X1 : rdft (2 * M) f k = Cplus (h1_of M Z k) (Cmult (wfac theta k) (h2_of (- (1 / 2)) M Z k))) by (rewrite <- RF_fwd by lia; reflexivity).
  assert (X2 : rdft (2 * M) f (M - k) = Cconj (Cminus (h1_of M Z k) (Cmult (wfac theta k) (h2_of (- (1 / 2)) M Z k)))). { rewrite <- RF_other by (auto; lia). unfold Z, theta. rewrite RF_fwd by lia. reflexivity. }
  unfold RF. assert (W : wfac (- theta) k = Cconj (wfac theta k)). { unfold wfac. rewrite Cconj_cis. f_equal. ring. } rewrite W.
  assert (U : Cmult (wfac theta k) (Cconj (wfac theta k)) = RtoC 1). { unfold wfac. rewrite Cconj_cis. apply cis_inv. }
  assert (A1 : h1_of M (rdft (2 * M) f) k = h1_of M Z k). { unfold h1_of at 1. rewrite X1, X2. set (A := h1_of M Z k). set (B := Cmult (wfac theta k) _). destruct A, B. apply C_eq; simpl; lra. }
  assert (A2 : h2_of (1 / 2) M (rdft (2 * M) f) k = Cmult (0, 1) (Cmult (wfac theta k) (h2_of (- (1 / 2)) M Z k))).
  { unfold h2_of at 1. rewrite X1, X2. set (A := h1_of M Z k). set (B := Cmult (wfac theta k) _). destruct A, B. apply C_eq; simpl; lra. }
  rewrite A1, A2. replace (Cmult (Cconj (wfac theta k)) (Cmult (0, 1) (Cmult (wfac theta k) (h2_of (- (1 / 2)) M Z k))))
    with (Cmult (Cmult (wfac theta k) (Cconj (wfac theta k))) (Cmult (0, 1) (h2_of (- (1 / 2)) M Z k))) by ring. rewrite U.
  unfold h1_of, h2_of. destruct (Z k), (Z (M - k)%nat). apply C_eq; simpl; lra.
Qed.
Lemma realft_inv L p f g o : let N := (2 * 2 ^ p)%nat in (N <= L)%nat ->
  numrec_realft (tabl L (fun i => if (i <? N)%nat then g * flat (packed N f) i else o i)) N false = Ok (tabl L (fun i => if (i <? N)%nat then g * INR (2 ^ p) * f i else o i)).
Proof.
  intros N HL. set (M := (2 ^ p)%nat) in *. assert (M0 : (0 < M)%nat) by apply pow2_pos. assert (N2 : (N / 2 = M)%nat) by (unfold N; apply half_even). unfold numrec_realft. rewrite N2. cbn [rbind].
  set (D := fun i => if (i <? N)%nat then g * flat (packed N f) i else o i). rewrite (tabl_ext L D (flat (unflat D))) by (intros; now rewrite flat_unflat).
  rewrite wp_ok. cbv beta iota zeta. set (theta := - (PI / INR M)).
  replace (1 + (cos theta - 1), sin theta) with (cis theta) by (unfold cis; f_equal; ring). replace 0.5 with (1 / 2) at 2 by lra.
  destruct (rloop_ok L p (1 / 2) theta (unflat D)) as (w & E); [right; split; auto|auto|]. fold M N in E. unfold C in E. rewrite E. cbn [rbind fst].
  rewrite !rd1_tabl by lia. cbn [rbind]. rewrite wr1_tabl by lia. cbn [rbind]. rewrite rd1_tabl by lia. cbn [rbind]. rewrite wr1_tabl by lia. cbn [rbind].
  change (1 - 1)%nat with 0%nat. change (2 - 1)%nat with 1%nat. set (G := rdone (1 / 2) theta M (unflat D)).
  assert (Dx : forall x, (1 <= x < M)%nat -> unflat D x = Cmult (RtoC g) (rdft (2 * M) f x)).
  { intros x Hx. unfold unflat, D. destruct (Nat.ltb_spec (2 * x) N), (Nat.ltb_spec (2 * x + 1) N); try (unfold N in *; lia). rewrite flat_even, flat_odd. unfold packed. rewrite N2.
    destruct (Nat.eqb_spec x 0); [lia|]. destruct (Nat.ltb_spec x M); [|lia]. fold N. apply C_eq; simpl; ring. }
  assert (G0 : G 0%nat = (g * fst (rdft N f 0), g * fst (rdft N f M))).
  { unfold G, rdone. cbn [Nat.leb andb]. unfold unflat, D. destruct (Nat.ltb_spec (2 * 0) N), (Nat.ltb_spec (2 * 0 + 1) N); try (unfold N in *; lia). rewrite flat_even, flat_odd. unfold packed. rewrite N2. reflexivity. }
  set (Y := fun x => if (x <? M)%nat then Cmult (RtoC g) (dft 1 M (unflat f) x) else unflat o x).
  destruct (rdft_ends M f M0) as [X0 X1]. fold N in X0, X1.
  rewrite (tabl_ext L _ (flat Y)).
  - assert (E4 : numrec_four1 (tabl L (flat Y)) M (-1) = Ok (tabl L (flat (dfts (-1) M Y)))) by (apply four1_ok; [now right|auto]). rewrite E4. f_equal. apply tabl_ext. intros i Hi.
    assert (Yd : forall j, (j < M)%nat -> dft (-1) M Y j = Cmult (RtoC (g * INR M)) (unflat f j)).
    { intros j Hj. transitivity (Cmult (RtoC g) (dft (-1) M (dft 1 M (unflat f)) j)). 2:{ rewrite dft_inverse by auto. apply C_eq; simpl; ring. }
      unfold dft at 1 2. rewrite <- CSig_scal. apply CSig_ext. intros k Hk. unfold Y. destruct (Nat.ltb_spec k M); [|lia]. ring. }
    destruct (nat_cases i) as [[k ->]|[k ->]]; [rewrite flat_even|rewrite flat_odd]; unfold dfts.
    + destruct (Nat.ltb_spec k M), (Nat.ltb_spec (2 * k) N); try (unfold N in *; lia); [rewrite Yd by auto; simpl; ring|]. unfold Y. destruct (Nat.ltb_spec k M); [lia|reflexivity].
    + destruct (Nat.ltb_spec k M), (Nat.ltb_spec (2 * k + 1) N); try (unfold N in *; lia); [rewrite Yd by auto; simpl; ring|]. unfold Y. destruct (Nat.ltb_spec k M); [lia|reflexivity].
  - intros i Hi. transitivity (flat (cset G 0 (Cmult (RtoC g) (dft 1 M (unflat f) 0))) i).
    + assert (Q0 : flat G 0 = g * fst (rdft N f 0)) by (change (g * fst (rdft N f 0)) with (fst (g * fst (rdft N f 0), g * fst (rdft N f M))); rewrite <- G0; apply (flat_even G 0)).
      assert (Q1 : flat G 1 = g * fst (rdft N f M)) by (change (g * fst (rdft N f M)) with (snd (g * fst (rdft N f 0), g * fst (rdft N f M))); rewrite <- G0; apply (flat_odd G 0)).
      rewrite flat_cset. change (2 * 0)%nat with 0%nat. change (0 + 1)%nat with 1%nat. unfold fset. cbn [Nat.eqb]. rewrite Q0, Q1, X0, X1. destruct (dft 1 M (unflat f) 0). cbn [fst snd Cmult RtoC].
      destruct (i =? 1)%nat; [lra|]. destruct (i =? 0)%nat; [lra|auto].
    + apply flat_ext. intros x. unfold cset, Y. destruct (Nat.eqb_spec x 0) as [->|Nx]. { destruct (Nat.ltb_spec 0 M); [auto|lia]. }
      unfold G, rdone. destruct (Nat.leb_spec 1 x); [|lia]. destruct (Nat.ltb_spec x M); cbn [andb].
      * transitivity (RF (1 / 2) theta M (fun x => Cmult (RtoC g) (rdft (2 * M) f x)) x). { unfold RF, h1_of, h2_of. now rewrite !Dx by lia. }
        rewrite RF_scal. unfold theta. rewrite RF_inv by lia. reflexivity.
      * unfold unflat, D. destruct (Nat.ltb_spec (2 * x) N), (Nat.ltb_spec (2 * x + 1) N); try (unfold N in *; lia). reflexivity.
Qed.
