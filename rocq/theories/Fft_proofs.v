(** Proofs about the fast transforms: arrays as tabulated functions, the complex FFT. *)
From Verif Require Import Rutil Loops Sparse_model Rsum Trig Fft_model.
From Verif Require Export Fft_spec.
Local Open Scope R_scope.

(** ** tabulated arrays *)
Definition tabl (L : nat) (f : nat -> R) : list R := map f (seq 0 L).
Definition fset (f : nat -> R) (i : nat) (v : R) (k : nat) : R := if (k =? i)%nat then v else f k.
Lemma tabl_length L f : List.length (tabl L f) = L. Proof. unfold tabl. now rewrite map_length, seq_length. Qed.
Lemma tabl_error L f i : (i < L)%nat -> nth_error (tabl L f) i = Some (f i).
Proof. intros H. unfold tabl. rewrite nth_error_map. rewrite nth_error_nth' with (d := 0%nat) by (rewrite seq_length; auto). rewrite seq_nth by auto. auto. Qed.
Lemma tabl_nth L f i : (i < L)%nat -> nth i (tabl L f) 0 = f i.
Proof. intros H. apply nth_error_nth. now apply tabl_error. Qed.
Lemma rd_tabl L f i : (i < L)%nat -> rd (tabl L f) i = Ok (f i).
Proof. intros H. unfold rd. now rewrite tabl_error. Qed.
Lemma list_tabl (l : list R) : l = tabl (List.length l) (fun i => nth i l 0).
Proof.
  apply nth_ext with (d := 0) (d' := 0). { now rewrite tabl_length. } intros n H. rewrite tabl_nth; auto.
Qed.
Lemma tabl_ext L f g : (forall i, (i < L)%nat -> f i = g i) -> tabl L f = tabl L g.
Proof. intros H. unfold tabl. apply map_ext_in. intros a Ha. apply in_seq in Ha. apply H. lia. Qed.
Lemma upd_nth_R (l : list R) : forall i v k, (i < List.length l)%nat -> nth k (upd l i v) 0 = if (k =? i)%nat then v else nth k l 0.
Proof.
  induction l as [|y r IH]; intros [|i] v k H; simpl in H; try lia.
  - destruct k; reflexivity.
  - destruct k; simpl; auto. apply IH. lia.
Qed.
Lemma wr_tabl L f i v : (i < L)%nat -> wr (tabl L f) i v = Ok (tabl L (fset f i v)).
Proof.
  intros H. unfold wr. rewrite tabl_error by auto. f_equal. apply nth_ext with (d := 0) (d' := 0). { now rewrite upd_length, !tabl_length. }
  intros n Hn. rewrite upd_length, tabl_length in Hn. rewrite upd_nth_R by (now rewrite tabl_length). rewrite tabl_nth with (f := fset f i v) by auto.
  unfold fset. destruct (n =? i)%nat; auto. now apply tabl_nth.
Qed.
Lemma rd1_tabl L f i : (1 <= i <= L)%nat -> rd1 (tabl L f) i = Ok (f (i - 1)%nat).
Proof. intros H. destruct i; [lia|]. cbn [rd1]. rewrite rd_tabl by lia. do 2 f_equal. lia. Qed.
Lemma wr1_tabl L f i v : (1 <= i <= L)%nat -> wr1 (tabl L f) i v = Ok (tabl L (fset f (i - 1) v)).
Proof. intros H. destruct i; [lia|]. cbn [wr1]. rewrite wr_tabl by lia. do 3 f_equal. lia. Qed.
Lemma for_nat_eq {S} (F : nat -> S) (body : nat -> S -> res S) lo hi : (lo <= hi)%nat ->
  (forall i, (lo <= i < hi)%nat -> body i (F i) = Ok (F (i + 1)%nat)) -> for_nat lo hi body (F lo) = Ok (F hi).
Proof.
  intros L H. destruct (for_nat_inv (fun i s => s = F i) body lo hi (F lo)) as (s' & E & P); auto.
  - intros i s Hi ->. exists (F (i + 1)%nat). auto.
  - now rewrite E, P.
Qed.

(** ** complex arrays *)
Definition flat (z : nat -> C) (i : nat) : R := if Nat.even i then fst (z (i / 2)%nat) else snd (z (i / 2)%nat).
Definition unflat (f : nat -> R) (k : nat) : C := (f (2 * k)%nat, f (2 * k + 1)%nat).
Definition cset (z : nat -> C) (a : nat) (v : C) (x : nat) : C := if (x =? a)%nat then v else z x.
Lemma half_even k : (2 * k / 2 = k)%nat. Proof. rewrite Nat.mul_comm. apply Nat.div_mul. lia. Qed.
Lemma half_odd k : ((2 * k + 1) / 2 = k)%nat. Proof. symmetry. apply Nat.div_unique with 1%nat; lia. Qed.
Lemma even_2k k : Nat.even (2 * k) = true. Proof. rewrite Nat.even_mul. reflexivity. Qed.
Lemma even_2k1 k : Nat.even (2 * k + 1) = false. Proof. rewrite Nat.even_add, even_2k. reflexivity. Qed.
Lemma flat_even z k : flat z (2 * k) = fst (z k). Proof. unfold flat. now rewrite even_2k, half_even. Qed.
Lemma flat_odd z k : flat z (2 * k + 1) = snd (z k). Proof. unfold flat. now rewrite even_2k1, half_odd. Qed.
Lemma nat_cases i : (exists k, i = (2 * k)%nat) \/ (exists k, i = (2 * k + 1)%nat).
Proof. destruct (Nat.Even_or_Odd i) as [[k H]|[k H]]; eauto. Qed.
Lemma flat_unflat f i : flat (unflat f) i = f i.
Proof. destruct (nat_cases i) as [[k ->]|[k ->]]; [rewrite flat_even|rewrite flat_odd]; reflexivity. Qed.
Lemma flat_ext z z' : (forall x, z x = z' x) -> forall i, flat z i = flat z' i.
Proof. intros H i. unfold flat. now rewrite H. Qed.
Lemma flat_cset z a v i : flat (cset z a v) i = fset (fset (flat z) (2 * a) (fst v)) (2 * a + 1) (snd v) i.
Proof.
  unfold fset. destruct (nat_cases i) as [[k ->]|[k ->]]; [rewrite !flat_even|rewrite !flat_odd]; unfold cset.
  - destruct (Nat.eqb_spec (2 * k) (2 * a + 1)); [lia|]. destruct (Nat.eqb_spec k a), (Nat.eqb_spec (2 * k) (2 * a)); auto; lia.
  - destruct (Nat.eqb_spec k a), (Nat.eqb_spec (2 * k + 1) (2 * a + 1)); auto; try lia.
    destruct (Nat.eqb_spec (2 * k + 1) (2 * a)); auto; lia.
Qed.
Lemma C_eq (a b : C) : fst a = fst b -> snd a = snd b -> a = b.
Proof. destruct a, b. simpl. intros; subst; auto. Qed.

(** two complex elements at once *)
Lemma flat_cset2 z a b va vb i : a <> b -> flat (cset (cset z a va) b vb) i =
  fset (fset (fset (fset (flat z) (2 * a) (fst va)) (2 * a + 1) (snd va)) (2 * b) (fst vb)) (2 * b + 1) (snd vb) i.
Proof.
  intros H. rewrite flat_cset. unfold fset. destruct (Nat.eqb_spec i (2 * b + 1)); auto. destruct (Nat.eqb_spec i (2 * b)); auto. rewrite flat_cset. reflexivity.
Qed.
Ltac fcases := unfold fset; repeat match goal with |- context [Nat.eqb ?a ?b] => destruct (Nat.eqb_spec a b); try lia end; auto.

(** ** reordering by reversed bits *)
Fixpoint rvb (q b : nat) : nat := match q with O => 0%nat | S q => (b mod 2 * 2 ^ q + rvb q (b / 2))%nat end.
Lemma pow2_pos q : (0 < 2 ^ q)%nat. Proof. apply Nat.neq_0_lt_0, Nat.pow_nonzero. lia. Qed.
Lemma rvb_lt q : forall b, (rvb q b < 2 ^ q)%nat.
Proof.
  induction q as [|q IH]; intros b; [simpl; lia|]. cbn [rvb]. rewrite Nat.pow_succ_r'. pose proof (IH (b / 2)%nat). pose proof (Nat.mod_upper_bound b 2 ltac:(lia)). nia.
Qed.
Lemma rvb_top q : forall h b, (h < 2)%nat -> (b < 2 ^ q)%nat -> rvb (S q) (h * 2 ^ q + b) = (h + 2 * rvb q b)%nat.
Proof.
  induction q as [|q IH]; intros h b Hh Hb.
  - simpl in Hb. assert (b = 0%nat) by lia. subst. destruct h as [|[|h]]; [reflexivity|reflexivity|lia].
  - rewrite Nat.pow_succ_r' in *. change (rvb (S (S q)) (h * (2 * 2 ^ q) + b)) with ((h * (2 * 2 ^ q) + b) mod 2 * 2 ^ (S q) + rvb (S q) ((h * (2 * 2 ^ q) + b) / 2))%nat.
    replace (h * (2 * 2 ^ q) + b)%nat with (b + (h * 2 ^ q) * 2)%nat by lia. rewrite Nat.mod_add, Nat.div_add by lia.
    replace (b / 2 + h * 2 ^ q)%nat with (h * 2 ^ q + b / 2)%nat by lia. rewrite IH; auto.
    + cbn [rvb]. rewrite Nat.pow_succ_r'. lia.
    + apply Nat.div_lt_upper_bound; lia.
Qed.
Lemma rvb_rvb q : forall b, (b < 2 ^ q)%nat -> rvb q (rvb q b) = b.
Proof.
  induction q as [|q IH]; intros b Hb; [simpl in Hb; simpl; lia|]. change (rvb (S q) b) with (b mod 2 * 2 ^ q + rvb q (b / 2))%nat.
  rewrite rvb_top; [|apply Nat.mod_upper_bound; lia|apply rvb_lt]. rewrite IH. { pose proof (Nat.div_mod_eq b 2). lia. }
  rewrite Nat.pow_succ_r' in Hb. apply Nat.div_lt_upper_bound; lia.
Qed.
Lemma rvb_even q k : rvb (S q) (2 * k) = rvb q k.
Proof. cbn [rvb]. rewrite half_even. replace (2 * k)%nat with (0 + k * 2)%nat by lia. rewrite Nat.mod_add by lia. reflexivity. Qed.
Lemma rvb_odd q k : rvb (S q) (2 * k + 1) = (2 ^ q + rvb q k)%nat.
Proof. cbn [rvb]. rewrite half_odd. replace (2 * k + 1)%nat with (1 + k * 2)%nat by lia. rewrite Nat.mod_add by lia. simpl. lia. Qed.

Definition Jof (q k : nat) : nat := if (k <? 2 ^ q)%nat then (2 * rvb q k + 1)%nat else 2%nat.
Lemma carry_ok q : forall fuel k, (q < fuel)%nat -> (k < 2 ^ q)%nat ->
  exists jm, carry fuel (2 * rvb q k + 1) (2 ^ q) = Ok jm /\ (fst jm + snd jm)%nat = Jof q (k + 1).
Proof.
  induction q as [|q IH]; intros fuel k Hf Hk; (destruct fuel as [|fuel]; [lia|]).
  - simpl in Hk. assert (k = 0%nat) by lia. subst. exists (1, 1)%nat. split; reflexivity.
  - assert (2 <= 2 ^ S q)%nat by (rewrite Nat.pow_succ_r'; pose proof (pow2_pos q); lia). cbn [carry].
    destruct (Nat.leb_spec 2 (2 ^ S q)); [|lia]. cbn [andb]. rewrite Nat.pow_succ_r' in *.
    assert (Jo : Jof (S q) (k + 1) = if (k + 1 <? 2 * 2 ^ q)%nat then (2 * rvb (S q) (k + 1) + 1)%nat else 2%nat) by (unfold Jof; now rewrite Nat.pow_succ_r').
    rewrite Jo. destruct (nat_cases k) as [[r ->]|[r ->]].
    + rewrite rvb_even. pose proof (rvb_lt q r). destruct (Nat.ltb_spec (2 * 2 ^ q) (2 * rvb q r + 1)); [lia|]. eexists. split; [reflexivity|].
      cbn [fst snd]. destruct (Nat.ltb_spec (2 * r + 1) (2 * 2 ^ q)); [|lia]. rewrite rvb_odd. lia.
    + rewrite rvb_odd. destruct (Nat.ltb_spec (2 * 2 ^ q) (2 * (2 ^ q + rvb q r) + 1)); [|lia].
      replace (2 * (2 ^ q + rvb q r) + 1 - 2 * 2 ^ q)%nat with (2 * rvb q r + 1)%nat by lia. rewrite half_even.
      destruct (IH fuel r) as (jm & E & V); [lia|lia|]. exists jm. split; auto. rewrite V. unfold Jof.
      replace (2 * r + 1 + 1)%nat with (2 * (r + 1))%nat by lia. rewrite rvb_even.
      destruct (Nat.ltb_spec (r + 1) (2 ^ q)), (Nat.ltb_spec (2 * (r + 1)) (2 * 2 ^ q)); auto; lia.
Qed.

Definition reordered (p k : nat) (z : nat -> C) (x : nat) : C :=
  if ((x <? 2 ^ p) && ((x <? k) || (rvb p x <? k)))%nat then z (rvb p x) else z x.
Lemma swap_ok L z a b : a <> b -> (2 * a + 1 < L)%nat -> (2 * b + 1 < L)%nat ->
  (do d <- swap1 (tabl L (flat z)) (2 * b + 1) (2 * a + 1); swap1 d (2 * b + 1 + 1) (2 * a + 1 + 1)) = Ok (tabl L (flat (cset (cset z a (z b)) b (z a)))).
Proof.
  intros H La Lb. unfold swap1. rewrite !rd1_tabl by lia. cbn [rbind]. rewrite wr1_tabl by lia. cbn [rbind]. rewrite wr1_tabl by lia. cbn [rbind].
  rewrite !rd1_tabl by lia. cbn [rbind]. rewrite wr1_tabl by lia. cbn [rbind]. rewrite wr1_tabl by lia. f_equal. apply tabl_ext. intros i Hi. rewrite flat_cset2 by auto.
  replace (2 * b + 1 - 1)%nat with (2 * b)%nat by lia. replace (2 * a + 1 - 1)%nat with (2 * a)%nat by lia. replace (2 * b + 1 + 1 - 1)%nat with (2 * b + 1)%nat by lia.
  replace (2 * a + 1 + 1 - 1)%nat with (2 * a + 1)%nat by lia. rewrite <- !flat_even, <- !flat_odd. fcases; subst; fcases.
Qed.
Lemma reorder_ok L p z : (2 * 2 ^ p <= L)%nat -> exists j, reorder (tabl L (flat z)) (2 ^ p) = Ok (tabl L (flat (reordered p (2 ^ p) z)), j).
Proof.
  intros HL. exists (Jof p (2 ^ p)). unfold reorder. rewrite half_even. pose proof (pow2_pos p) as P0.
  transitivity (for_nat 0 (2 ^ p) (fun k s => let '(d, j) := s in let i := (2 * k + 1)%nat in
    do d <- (if (i <? j)%nat then do d <- swap1 d j i; swap1 d (j + 1) (i + 1) else Ok d);
    do jm <- carry (2 ^ p + 1) j (2 ^ p); Ok (d, fst jm + snd jm)%nat) ((fun k => (tabl L (flat (reordered p k z)), Jof p k)) 0%nat)).
  - f_equal. f_equal.
    + apply tabl_ext. intros i Hi. apply flat_ext. intros x. unfold reordered. destruct (Nat.ltb_spec x 0), (Nat.ltb_spec (rvb p x) 0); try lia. simpl. now rewrite andb_false_r.
    + unfold Jof. destruct (Nat.ltb_spec 0 (2 ^ p)); [|lia]. assert (E : forall q, rvb q 0 = 0%nat). { induction q; simpl; auto. } rewrite E. reflexivity.
  - apply (for_nat_eq (fun k => (tabl L (flat (reordered p k z)), Jof p k))); [lia|]. intros k Hk. cbv beta iota zeta.
    destruct (carry_ok p (2 ^ p + 1) k) as (jm & E & V); [|lia|]. { pose proof (Nat.pow_gt_lin_r 2 p). lia. }
    assert (J0 : Jof p k = (2 * rvb p k + 1)%nat). { unfold Jof. destruct (Nat.ltb_spec k (2 ^ p)); lia. } rewrite J0.
    pose proof (rvb_lt p k) as Rk. pose proof (rvb_rvb p k ltac:(lia)) as RR.
    assert (D : (if (2 * k + 1 <? 2 * rvb p k + 1)%nat then do d <- swap1 (tabl L (flat (reordered p k z))) (2 * rvb p k + 1) (2 * k + 1); swap1 d (2 * rvb p k + 1 + 1) (2 * k + 1 + 1) else Ok (tabl L (flat (reordered p k z))))
      = Ok (tabl L (flat (reordered p (k + 1) z)))).
    { destruct (Nat.ltb_spec (2 * k + 1) (2 * rvb p k + 1)).
      - rewrite swap_ok by lia. f_equal. apply tabl_ext. intros i Hi. apply flat_ext. intros x. unfold cset, reordered.
        destruct (Nat.eqb_spec x (rvb p k)) as [->|H1].
        + rewrite RR. destruct (Nat.ltb_spec (rvb p k) (2 ^ p)); [|lia]. destruct (Nat.ltb_spec k (2 ^ p)); [|lia]. destruct (Nat.ltb_spec k k); [lia|]. destruct (Nat.ltb_spec (rvb p k) k); [lia|].
          destruct (Nat.ltb_spec k (k + 1)); [|lia]. now rewrite orb_true_r.
        + destruct (Nat.eqb_spec x k) as [->|H2].
          * rewrite RR. destruct (Nat.ltb_spec (rvb p k) (2 ^ p)); [|lia]. destruct (Nat.ltb_spec k (2 ^ p)); [|lia]. destruct (Nat.ltb_spec k k); [lia|]. destruct (Nat.ltb_spec (rvb p k) k); [lia|].
            destruct (Nat.ltb_spec k (k + 1)); [|lia]. reflexivity.
          * destruct (Nat.ltb_spec x (2 ^ p)); auto. assert (rvb p x <> k). { intros E2. apply H1. rewrite <- E2. now rewrite rvb_rvb. }
            destruct (Nat.ltb_spec x k), (Nat.ltb_spec x (k + 1)), (Nat.ltb_spec (rvb p x) k), (Nat.ltb_spec (rvb p x) (k + 1)); auto; lia.
      - f_equal. apply tabl_ext. intros i Hi. apply flat_ext. intros x. unfold reordered. destruct (Nat.ltb_spec x (2 ^ p)); auto.
        destruct (Nat.eq_dec x k) as [->|H2].
        + destruct (Nat.ltb_spec k k); [lia|]. destruct (Nat.ltb_spec k (k + 1)); [|lia]. destruct (Nat.ltb_spec (rvb p k) k); cbn; auto. assert (rvb p k = k) by lia. congruence.
        + destruct (Nat.eq_dec (rvb p x) k) as [E2|H3].
          * assert (x = rvb p k) by (rewrite <- E2; now rewrite rvb_rvb). subst x. rewrite E2. destruct (Nat.ltb_spec (rvb p k) k); [|lia].
            destruct (Nat.ltb_spec (rvb p k) (k + 1)); [|lia]. reflexivity.
          * destruct (Nat.ltb_spec x k), (Nat.ltb_spec x (k + 1)), (Nat.ltb_spec (rvb p x) k), (Nat.ltb_spec (rvb p x) (k + 1)); auto; lia. }
    rewrite D. cbn [rbind]. rewrite E. cbn [rbind]. now rewrite V.
Qed.

(** ** rotating factors *)
Lemma cis_plus a b : cis (a + b) = Cmult (cis a) (cis b).
Proof. unfold cis. apply C_eq; simpl; [rewrite cos_plus|rewrite sin_plus]; ring. Qed.
Lemma cis_0 : cis 0 = RtoC 1. Proof. unfold cis. now rewrite cos_0, sin_0. Qed.
Lemma turn_gen x theta : turn (cos theta - 1) (sin theta) (cis x) = cis (x + theta).
Proof. unfold turn, cis. f_equal; [rewrite cos_plus|rewrite sin_plus]; ring. Qed.
Lemma cos_half2 theta : - 2 * sin (0.5 * theta) * sin (0.5 * theta) = cos theta - 1.
Proof. replace theta with (2 * (0.5 * theta)) at 3 by lra. rewrite cos_2a_sin. ring. Qed.
Lemma wp_ok theta : wp_of theta = (cos theta - 1, sin theta).
Proof. unfold wp_of. now rewrite cos_half2. Qed.

(** ** one pass *)
Local Open Scope C_scope.
Lemma butterfly_ok L (z : nat -> C) M a w : (0 < M)%nat -> (2 * (a + M) + 1 < L)%nat ->
  butterfly (2 * M) (2 * a + 1) (fst w) (snd w) (tabl L (flat z)) = Ok (tabl L (flat (cset (cset z a (z a + w * z (a + M)%nat)) (a + M) (z a - w * z (a + M)%nat)))).
Proof.
  intros HM HL. unfold butterfly. cbv zeta. rewrite !rd1_tabl by lia. cbn [rbind]. rewrite wr1_tabl by lia. cbn [rbind]. rewrite rd1_tabl by lia. cbn [rbind].
  rewrite wr1_tabl by lia. cbn [rbind]. rewrite rd1_tabl by lia. cbn [rbind]. rewrite wr1_tabl by lia. cbn [rbind]. rewrite rd1_tabl by lia. cbn [rbind].
  rewrite wr1_tabl by lia. f_equal. apply tabl_ext. intros i Hi. rewrite flat_cset2 by lia.
  replace (2 * a + 1 - 1)%nat with (2 * a)%nat by lia. replace (2 * a + 1 + 1 - 1)%nat with (2 * a + 1)%nat by lia.
  replace (2 * a + 1 + 2 * M - 1)%nat with (2 * (a + M))%nat by lia. replace (2 * a + 1 + 2 * M + 1 - 1)%nat with (2 * (a + M) + 1)%nat by lia.
  set (A2 := (2 * a + 1)%nat). set (A1 := (2 * a)%nat). set (B2 := (2 * (a + M) + 1)%nat). set (B1 := (2 * (a + M))%nat).
  assert (V1 : fst (z a) = flat z A1) by (unfold A1; now rewrite flat_even). assert (V2 : snd (z a) = flat z A2) by (unfold A2; now rewrite flat_odd).
  assert (V3 : fst (z (a + M)%nat) = flat z B1) by (unfold B1; now rewrite flat_even). assert (V4 : snd (z (a + M)%nat) = flat z B2) by (unfold B2; now rewrite flat_odd).
  unfold Cminus, Cplus, Copp, Cmult. cbn [fst snd]. rewrite V1, V2, V3, V4. unfold fset.
  assert (A1 <> A2 /\ A1 <> B1 /\ A1 <> B2 /\ A2 <> B1 /\ A2 <> B2 /\ B1 <> B2)%nat as (N1 & N2 & N3 & N4 & N5 & N6) by (unfold A1, A2, B1, B2; lia). clearbody A1 A2 B1 B2.
  repeat match goal with |- context [Nat.eqb ?x ?y] => destruct (Nat.eqb_spec x y); subst; try congruence end; ring.
Qed.
Definition wfac (theta : R) (t : nat) : C := cis (INR t * theta).
Definition bf (theta : R) (M : nat) (z : nat -> C) (x : nat) : C :=
  if Nat.even (x / M) then z x + wfac theta (x mod M) * z (x + M)%nat else z (x - M)%nat - wfac theta (x mod M) * z x.
Definition part (theta : R) (M B t r : nat) (z : nat -> C) (x : nat) : C :=
  if ((x <? 2 * M * B) && ((x mod M <? t) || ((x mod M =? t) && (x / M / 2 <? r))))%nat then bf theta M z x else z x.
Lemma div_facts M t q : (t < M)%nat -> ((M * q + t) / M = q /\ (M * q + t) mod M = t)%nat.
Proof. intros H. split; [symmetry; apply Nat.div_unique with t; lia|symmetry; apply Nat.mod_unique with q; lia]. Qed.
Lemma part_step theta M B t r z : (t < M)%nat -> (r < B)%nat ->
  let a := (2 * M * r + t)%nat in let zr := part theta M B t r z in
  forall x, cset (cset zr a (zr a + wfac theta t * zr (a + M)%nat)) (a + M) (zr a - wfac theta t * zr (a + M)%nat) x = part theta M B t (r + 1) z x.
Proof.
  intros Ht Hr a zr x.
  destruct (div_facts M t (2 * r) Ht) as [D1 D2]. destruct (div_facts M t (2 * r + 1) Ht) as [D3 D4].
  replace (M * (2 * r) + t)%nat with a in * by (unfold a; lia). replace (M * (2 * r + 1) + t)%nat with (a + M)%nat in * by (unfold a; lia).
  assert (Za : zr a = z a). { unfold zr, part. rewrite D1, D2, half_even. destruct (Nat.ltb_spec t t); [lia|]. destruct (Nat.ltb_spec r r); [lia|]. now rewrite !andb_false_r. }
  assert (Zb : zr (a + M)%nat = z (a + M)%nat). { unfold zr, part. rewrite D3, D4, half_odd. destruct (Nat.ltb_spec t t); [lia|]. destruct (Nat.ltb_spec r r); [lia|]. now rewrite !andb_false_r. }
  assert (Lb : (a + M < 2 * M * B)%nat) by (unfold a; nia).
  rewrite Za, Zb. unfold cset. destruct (Nat.eqb_spec x (a + M)) as [->|H1].
  - unfold part. rewrite D3, D4, half_odd, Nat.eqb_refl. destruct (Nat.ltb_spec (a + M) (2 * M * B)); [|lia]. destruct (Nat.ltb_spec r (r + 1)); [|lia]. rewrite orb_true_r. cbn [andb].
    unfold bf. rewrite D3, D4, even_2k1. now replace (a + M - M)%nat with a by lia.
  - destruct (Nat.eqb_spec x a) as [->|H2].
    + unfold part. rewrite D1, D2, half_even, Nat.eqb_refl. destruct (Nat.ltb_spec a (2 * M * B)); [|lia]. destruct (Nat.ltb_spec r (r + 1)); [|lia]. rewrite orb_true_r. cbn [andb].
      unfold bf. now rewrite D1, D2, even_2k.
    + unfold zr, part. destruct (Nat.eqb_spec (x mod M) t) as [E|E]; cbn [andb]; [|rewrite !orb_false_r; reflexivity].
      assert (x / M / 2 <> r)%nat. { intros E2. pose proof (Nat.div_mod_eq x M). destruct (nat_cases (x / M)) as [[k Hk]|[k Hk]]; rewrite Hk in *; [rewrite half_even in E2|rewrite half_odd in E2]; subst k;
        [apply H2|apply H1]; unfold a; lia. }
      destruct (Nat.ltb_spec (x / M / 2) r), (Nat.ltb_spec (x / M / 2) (r + 1)); auto; lia.
Qed.
Lemma pass_count M B t : (t < M)%nat -> (0 < B)%nat ->
  (if (2 * t + 1 <=? 2 * (2 * M * B))%nat then (2 * (2 * M * B) - (2 * t + 1)) / (2 * (2 * M)) + 1 else 0)%nat = B.
Proof.
  intros Ht HB. assert (2 * t + 1 <= 2 * (2 * M * B))%nat by nia. destruct (Nat.leb_spec (2 * t + 1) (2 * (2 * M * B))); [|lia].
  replace ((2 * (2 * M * B) - (2 * t + 1)) / (2 * (2 * M)))%nat with (B - 1)%nat; [lia|]. apply Nat.div_unique with (4 * M - (2 * t + 1))%nat; nia.
Qed.
Lemma pass_ok L s M B z : (0 < M)%nat -> (0 < B)%nat -> (2 * (2 * M * B) <= L)%nat ->
  pass s (2 * (2 * M * B)) (2 * M) (tabl L (flat z)) = Ok (tabl L (flat (part (s * (2 * PI / INR (2 * M))) M B M 0 z))).
Proof.
  intros HM HB HL. unfold pass. rewrite wp_ok. set (theta := (s * (2 * PI / INR (2 * M)))%R). rewrite half_even.
  set (F := fun t : nat => (tabl L (flat (part theta M B t 0 z)), wfac theta t)).
  assert (F0 : (tabl L (flat z), (1, 0)%R) = F 0%nat).
  { unfold F. f_equal. - apply tabl_ext. intros i Hi. apply flat_ext. intros x. unfold part. destruct (Nat.ltb_spec (x mod M) 0), (Nat.ltb_spec (x / M / 2) 0); try lia. now rewrite !andb_false_r.
    - unfold wfac. simpl INR. rewrite Rmult_0_l, cis_0. reflexivity. }
  rewrite F0. rewrite (for_nat_eq F); [reflexivity|lia|]. intros t Ht. unfold F at 1. cbv beta iota zeta. rewrite (pass_count M B t) by lia.
  assert (I : for_nat 0 B (fun r d => butterfly (2 * M) (2 * t + 1 + r * (2 * (2 * M))) (fst (wfac theta t)) (snd (wfac theta t)) d) (tabl L (flat (part theta M B t 0 z))) = Ok (tabl L (flat (part theta M B t B z)))).
  { apply (for_nat_eq (fun r => tabl L (flat (part theta M B t r z)))); [lia|]. intros r Hr.
    replace (2 * t + 1 + r * (2 * (2 * M)))%nat with (2 * (2 * M * r + t) + 1)%nat by lia. rewrite butterfly_ok; [|lia|nia].
    f_equal. apply tabl_ext. intros i Hi. apply flat_ext. apply part_step; lia. }
  rewrite I. cbn [rbind]. f_equal. unfold F. f_equal.
  - apply tabl_ext. intros i Hi. apply flat_ext. intros x. unfold part. destruct (Nat.ltb_spec x (2 * M * B)); auto. cbn [andb].
    assert (x / M / 2 < B)%nat. { rewrite Nat.div_div by lia. apply Nat.div_lt_upper_bound; nia. }
    destruct (Nat.ltb_spec (x / M / 2) B); [|lia]. rewrite andb_true_r. destruct (Nat.ltb_spec (x / M / 2) 0); [lia|]. rewrite andb_false_r, orb_false_r.
    destruct (Nat.ltb_spec (x mod M) t), (Nat.eqb_spec (x mod M) t), (Nat.ltb_spec (x mod M) (t + 1)); auto; lia.
  - unfold wfac. rewrite turn_gen. f_equal. rewrite plus_INR. simpl. ring.
Qed.
Local Close Scope C_scope.

(** ** sums of complex numbers *)
Lemma CSig_ext n f g : (forall i, (i < n)%nat -> f i = g i) -> CSig n f = CSig n g.
Proof. intros H. unfold CSig. f_equal; apply Sig_ext; intros; now rewrite H. Qed.
Lemma CSig_S n f : CSig (S n) f = Cplus (CSig n f) (f n).
Proof. reflexivity. Qed.
Lemma CSig_scal n (c : C) f : CSig n (fun i => Cmult c (f i)) = Cmult c (CSig n f).
Proof. induction n as [|n IH]; [unfold CSig; simpl; apply C_eq; simpl; ring|]. rewrite !CSig_S, IH. ring. Qed.
Lemma CSig_scal_r n (c : C) f : CSig n (fun i => Cmult (f i) c) = Cmult (CSig n f) c.
Proof. induction n as [|n IH]; [unfold CSig; simpl; apply C_eq; simpl; ring|]. rewrite !CSig_S, IH. ring. Qed.
Lemma CSig_opp n f : CSig n (fun i => Copp (f i)) = Copp (CSig n f).
Proof. induction n as [|n IH]; [unfold CSig; simpl; apply C_eq; simpl; ring|]. rewrite !CSig_S, IH. ring. Qed.
Lemma CSig_pairs n f : CSig (2 * n) f = Cplus (CSig n (fun r => f (2 * r)%nat)) (CSig n (fun r => f (2 * r + 1)%nat)).
Proof.
  induction n as [|n IH]; [unfold CSig; simpl; apply C_eq; simpl; ring|].
  replace (2 * S n)%nat with (S (S (2 * n))) by lia. rewrite !CSig_S, IH. replace (S (2 * n)) with (2 * n + 1)%nat by lia. ring.
Qed.
Lemma CSig_swap n m (f : nat -> nat -> C) : CSig n (fun i => CSig m (f i)) = CSig m (fun j => CSig n (fun i => f i j)).
Proof. unfold CSig. cbn [fst snd]. f_equal; apply Sig_swap. Qed.
Definition sgn (s : R) : Prop := s = 1 \/ s = -1.
Lemma cis_period s x k : sgn s -> cis (x + s * (2 * PI * INR k)) = cis x.
Proof.
  intros [-> | ->]; unfold cis.
  - replace (x + 1 * (2 * PI * INR k)) with (x + 2 * INR k * PI) by ring. now rewrite cos_period, sin_period.
  - rewrite <- (cos_period (x + -1 * (2 * PI * INR k)) k), <- (sin_period (x + -1 * (2 * PI * INR k)) k).
    replace (x + -1 * (2 * PI * INR k) + 2 * INR k * PI) with x by ring. auto.
Qed.
Lemma cis_half s : sgn s -> cis (s * PI) = RtoC (-1).
Proof. intros [-> | ->]; unfold cis, RtoC; f_equal; rewrite ?Rmult_1_l; try apply cos_PI; try apply sin_PI; replace (-1 * PI) with (- PI) by ring; rewrite ?cos_neg, ?sin_neg, ?cos_PI, ?sin_PI; lra. Qed.

(** ** the state after s passes: block b holds the transform of every 2^(p-s)-th element *)
Definition halfway (sg : R) (p s : nat) (x z : nat -> C) : Prop :=
  (forall b t, (b < 2 ^ (p - s))%nat -> (t < 2 ^ s)%nat ->
    z (2 ^ s * b + t)%nat = CSig (2 ^ s) (fun r => Cmult (x (r * 2 ^ (p - s) + rvb (p - s) b)%nat) (cis (sg * (2 * PI * INR r * INR t / INR (2 ^ s)))))) /\
  (forall k, (2 ^ p <= k)%nat -> z k = x k).
Lemma halfway_start sg p x : halfway sg p 0 x (reordered p (2 ^ p) x).
Proof.
  split.
  - intros b t Hb Ht. rewrite Nat.sub_0_r in *. simpl in Ht. assert (t = 0%nat) by lia. subst. simpl (2 ^ 0)%nat. rewrite Nat.mul_1_l, Nat.add_0_r.
    rewrite CSig_S. unfold reordered. destruct (Nat.ltb_spec b (2 ^ p)); [|lia]. cbn [andb orb]. rewrite Nat.mul_0_l, Nat.add_0_l.
    simpl INR. replace (sg * (2 * PI * 0 * 0 / 1)) with 0 by field. rewrite cis_0. unfold CSig. simpl Sig. apply C_eq; simpl; ring.
  - intros k Hk. unfold reordered. destruct (Nat.ltb_spec k (2 ^ p)); [lia|]. reflexivity.
Qed.
Lemma halfway_step sg p s x z : sgn sg -> (s < p)%nat -> halfway sg p s x z ->
  halfway sg p (s + 1) x (part (sg * (2 * PI / INR (2 * 2 ^ s))) (2 ^ s) (2 ^ (p - s - 1)) (2 ^ s) 0 z).
Proof.
  intros Hsg Hs [H1 H2]. set (M := (2 ^ s)%nat) in *. set (B := (2 ^ (p - s - 1))%nat). pose proof (pow2_pos s) as M0. fold M in M0.
  assert (Ms : (2 ^ (s + 1) = 2 * M)%nat) by (unfold M; rewrite Nat.add_1_r, Nat.pow_succ_r'; auto).
  set (e1 := (p - s - 1)%nat) in *. assert (Es : (p - s = S e1)%nat) by lia. assert (Be : (2 ^ (p - s) = 2 * B)%nat) by (rewrite Es; unfold B; apply Nat.pow_succ_r').
  assert (Pe : (2 ^ p = 2 * M * B)%nat). { replace p with (s + (p - s))%nat by lia. rewrite Nat.pow_add_r. fold M. rewrite Be. lia. }
  assert (R0 : INR M <> 0) by (apply not_0_INR; lia).
  split.
  - replace (p - (s + 1))%nat with e1 by lia. fold B. rewrite Ms. intros b t' Hb Ht'.
    assert (exists h t, (h = 0 \/ h = 1)%nat /\ (t < M)%nat /\ t' = (h * M + t)%nat) as (h & t & Hh & Ht & ->).
    { destruct (le_lt_dec M t'); [exists 1%nat, (t' - M)%nat|exists 0%nat, t']; lia. }
    destruct (div_facts M t (2 * b + h) Ht) as [D1 D2]. replace (M * (2 * b + h) + t)%nat with (2 * M * b + (h * M + t))%nat in * by lia.
    unfold part. assert (2 * M * b + (h * M + t) < 2 * M * B)%nat by nia. destruct (Nat.ltb_spec (2 * M * b + (h * M + t)) (2 * M * B)); [|lia].
    rewrite D2. destruct (Nat.ltb_spec t M); [|lia]. cbn [andb orb]. unfold bf. rewrite D1, D2. unfold wfac.
    rewrite CSig_pairs.
    assert (Q0 : z (M * (2 * b) + t)%nat = CSig M (fun r => Cmult (x (2 * r * B + rvb e1 b)%nat) (cis (sg * (2 * PI * INR r * INR t / INR M))))).
    { rewrite H1 by lia. apply CSig_ext. intros r Hr. f_equal. f_equal. rewrite Be, Es, rvb_even. lia. }
    assert (Q1 : z (M * (2 * b + 1) + t)%nat = CSig M (fun r => Cmult (x ((2 * r + 1) * B + rvb e1 b)%nat) (cis (sg * (2 * PI * INR r * INR t / INR M))))).
    { rewrite H1 by lia. apply CSig_ext. intros r Hr. f_equal. f_equal. rewrite Be, Es, rvb_odd. fold B. lia. }
    assert (W : forall r, cis (sg * (2 * PI * INR (2 * r) * INR (h * M + t) / INR (2 * M))) = cis (sg * (2 * PI * INR r * INR t / INR M))).
    { intros r. rewrite <- (cis_period sg (sg * (2 * PI * INR r * INR t / INR M)) (r * h) Hsg). f_equal. rewrite !mult_INR, plus_INR, mult_INR. simpl (INR 2). field. auto. }
    assert (W1 : forall r, cis (sg * (2 * PI * INR (2 * r + 1) * INR (h * M + t) / INR (2 * M))) = Cmult (cis (sg * (2 * PI * INR r * INR t / INR M))) (Cmult (cis (INR h * (sg * PI))) (cis (INR t * (sg * (2 * PI / INR (2 * M))))))).
    { intros r. rewrite <- (cis_period sg (sg * (2 * PI * INR r * INR t / INR M)) (r * h) Hsg). rewrite <- !cis_plus. f_equal. rewrite !plus_INR, !mult_INR. simpl. field. auto. }
    rewrite (CSig_ext M (fun r => Cmult (x (2 * r * B + rvb e1 b)%nat) (cis (sg * (2 * PI * INR (2 * r) * INR (h * M + t) / INR (2 * M)))))
      (fun r => Cmult (x (2 * r * B + rvb e1 b)%nat) (cis (sg * (2 * PI * INR r * INR t / INR M))))) by (intros; now rewrite W).
    rewrite (CSig_ext M (fun r => Cmult (x ((2 * r + 1) * B + rvb e1 b)%nat) (cis (sg * (2 * PI * INR (2 * r + 1) * INR (h * M + t) / INR (2 * M)))))
      (fun r => Cmult (Cmult (x ((2 * r + 1) * B + rvb e1 b)%nat) (cis (sg * (2 * PI * INR r * INR t / INR M)))) (Cmult (cis (INR h * (sg * PI))) (cis (INR t * (sg * (2 * PI / INR (2 * M)))))))).
    2:{ intros r Hr. rewrite W1. ring. }
    rewrite CSig_scal_r, <- Q0, <- Q1. destruct Hh as [-> | ->].
    + rewrite Nat.add_0_r, even_2k. replace (2 * M * b + (0 * M + t))%nat with (M * (2 * b) + t)%nat by lia. replace (M * (2 * b) + t + M)%nat with (M * (2 * b + 1) + t)%nat by lia.
      simpl (INR 0). rewrite Rmult_0_l, cis_0. ring.
    + rewrite even_2k1. replace (2 * M * b + (1 * M + t) - M)%nat with (M * (2 * b) + t)%nat by lia. replace (2 * M * b + (1 * M + t))%nat with (M * (2 * b + 1) + t)%nat by lia.
      simpl (INR 1). rewrite Rmult_1_l, cis_half by auto. replace (RtoC (-1)) with (Copp (RtoC 1)) by (apply C_eq; simpl; ring). ring.
  - intros k Hk. unfold part. destruct (Nat.ltb_spec k (2 * M * B)); [lia|]. cbn [andb]. auto.
Qed.
(** the transform of the first n elements, the others unchanged *)
Definition dfts (sg : R) (n : nat) (x : nat -> C) (k : nat) : C := if (k <? n)%nat then dft sg n x k else x k.
Lemma passes_ok L sg p x : sgn sg -> (2 * 2 ^ p <= L)%nat -> forall e s z fuel, (s + e = p)%nat -> (e < fuel)%nat -> halfway sg p s x z ->
  passes fuel sg (2 * 2 ^ p) (2 * 2 ^ s) (tabl L (flat z)) = Ok (tabl L (flat (dfts sg (2 ^ p) x))).
Proof.
  intros Hsg HL. induction e as [|e IH]; intros s z fuel Hp Hf H; (destruct fuel as [|fuel]; [lia|]); cbn [passes].
  - assert (s = p) by lia. subst s. destruct (Nat.ltb_spec (2 * 2 ^ p) (2 * 2 ^ p)); [lia|]. f_equal. apply tabl_ext. intros i Hi. apply flat_ext. intros k. unfold dfts.
    destruct H as [H1 H2]. destruct (Nat.ltb_spec k (2 ^ p)); [|now apply H2]. specialize (H1 0%nat k). rewrite Nat.sub_diag in H1. rewrite Nat.mul_0_r, Nat.add_0_l in H1. rewrite H1; [|simpl; lia|auto].
    unfold dft. apply CSig_ext. intros r Hr. f_equal. f_equal. simpl. lia.
  - assert (2 ^ s < 2 ^ p)%nat by (apply Nat.pow_lt_mono_r; lia). destruct (Nat.ltb_spec (2 * 2 ^ s) (2 * 2 ^ p)); [|lia].
    assert (Pe : (2 ^ p = 2 * 2 ^ s * 2 ^ (p - s - 1))%nat). { replace p with (S (s + (p - s - 1))) at 1 by lia. rewrite Nat.pow_succ_r', Nat.pow_add_r. lia. }
    rewrite Pe at 1. rewrite pass_ok; [|apply pow2_pos|apply pow2_pos|lia]. cbn [rbind].
    replace (2 * (2 * 2 ^ s))%nat with (2 * 2 ^ (s + 1))%nat by (rewrite Nat.add_1_r, Nat.pow_succ_r'; auto). apply IH; [lia|lia|]. apply halfway_step; auto. lia.
Qed.
Lemma four1_ok L sg p x : sgn sg -> (2 * 2 ^ p <= L)%nat -> numrec_four1 (tabl L (flat x)) (2 ^ p) sg = Ok (tabl L (flat (dfts sg (2 ^ p) x))).
Proof.
  intros Hsg HL. unfold numrec_four1. destruct (reorder_ok L p x HL) as (j & E). rewrite E. cbn [rbind fst].
  apply (passes_ok L sg p x Hsg HL p 0%nat); auto.
  - pose proof (Nat.pow_gt_lin_r 2 p). lia.
  - apply halfway_start.
Qed.
