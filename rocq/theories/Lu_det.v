(** The determinant of Lu_spec is the usual one: linear in each row, zero for equal rows, and therefore what the LU factors give. *)
From Verif Require Import Arrays Sparse_model Mat_model Mat_spec Mat_proofs Lu_model Lu_spec Lu_proofs.
Local Open Scope R_scope.

Definition setrow (K : nat -> nat -> R) (i : nat) (r : nat -> R) : nat -> nat -> R := fun a c => if (a =? i)%nat then r c else K a c.
Lemma skip_lt n i a : (a < n)%nat -> (i < S n)%nat -> (skip i a < S n)%nat.
Proof. unfold skip. destruct (Nat.ltb_spec a i); lia. Qed.
Lemma skip_ne i a : skip i a <> i.
Proof. unfold skip. destruct (Nat.ltb_spec a i); lia. Qed.
Lemma det_ext n K K' : (forall a c, (a < n)%nat -> (c < n)%nat -> K a c = K' a c) -> det n K = det n K'.
Proof.
  revert K K'. induction n as [|n IH]; intros K K' H; cbn [det]; auto. apply Sig_ext. intros i Hi. rewrite H by lia. f_equal. apply IH. intros a c Ha Hc. apply H; [now apply skip_lt|lia].
Qed.
(** position of row i after deleting row r <> i *)
Definition unskip (r i : nat) : nat := if (i <? r)%nat then i else pred i.
Lemma skip_unskip r i : i <> r -> skip r (unskip r i) = i.
Proof. unfold skip, unskip. intros N. destruct (Nat.ltb_spec i r). - destruct (Nat.ltb_spec i r); lia. - destruct (Nat.ltb_spec (pred i) r); lia. Qed.
Lemma unskip_skip r a : unskip r (skip r a) = a.
Proof. unfold skip, unskip. destruct (Nat.ltb_spec a r). - destruct (Nat.ltb_spec a r); lia. - destruct (Nat.ltb_spec (S a) r); lia. Qed.
Lemma unskip_lt n r i : (i < S n)%nat -> (r < S n)%nat -> i <> r -> (unskip r i < n)%nat.
Proof. unfold unskip. destruct (Nat.ltb_spec i r); lia. Qed.
Lemma det_row n K i r1 r2 x : (i < n)%nat -> det n (setrow K i (fun c => x * r1 c + r2 c)) = x * det n (setrow K i r1) + det n (setrow K i r2).
Proof.
  revert K i r1 r2. induction n as [|n IH]; intros K i r1 r2 Hi; [lia|]. cbn [det]. rewrite <- Sig_scal, <- Sig_plus. apply Sig_ext. intros r Hr.
  destruct (Nat.eq_dec r i) as [->|N].
  - unfold setrow at 1 3 5. rewrite Nat.eqb_refl.
    assert (E : forall q, det n (fun a c => setrow K i q (skip i a) (S c)) = det n (fun a c => K (skip i a) (S c))). { intros q. apply det_ext. intros a c Ha Hc. unfold setrow. destruct (Nat.eqb_spec (skip i a) i) as [E|]; auto. now apply skip_ne in E. }
    rewrite !E. ring.
  - unfold setrow at 1 3 5. destruct (Nat.eqb_spec r i); [lia|].
    assert (E : forall q, det n (fun a c => setrow K i q (skip r a) (S c)) = det n (setrow (fun a c => K (skip r a) (S c)) (unskip r i) (fun c => q (S c)))).
    { intros q. apply det_ext. intros a c Ha Hc. unfold setrow. destruct (Nat.eqb_spec (skip r a) i) as [E|E], (Nat.eqb_spec a (unskip r i)) as [E'|E']; auto. - subst i. rewrite unskip_skip in E'. lia. - subst a. rewrite skip_unskip in E by auto. lia. }
    rewrite !E, IH by (apply unskip_lt; lia). ring.
Qed.
Lemma det_adjacent n K i : (S i < n)%nat -> (forall c, (c < n)%nat -> K i c = K (S i) c) -> det n K = 0.
Proof.
  revert K i. induction n as [|n IH]; intros K i Hi H; [lia|]. cbn [det].
  rewrite (Sig_ext _ _ (fun r => (if (r =? i)%nat then (-1) ^ i * K i O * det n (fun a c => K (skip i a) (S c)) else 0) + (if (r =? S i)%nat then (-1) ^ S i * K i O * det n (fun a c => K (skip i a) (S c)) else 0))).
  - rewrite Sig_plus, !Sig_delta by lia. cbn [pow]. ring.
  - intros r Hr. destruct (Nat.eqb_spec r i) as [->|N1].
    + destruct (Nat.eqb_spec i (S i)); [lia|]. ring.
    + destruct (Nat.eqb_spec r (S i)) as [->|N2].
      * rewrite Rplus_0_l. rewrite <- (H O) by lia. f_equal. apply det_ext. intros a c Ha Hc. unfold skip. destruct (Nat.ltb_spec a (S i)), (Nat.ltb_spec a i); try lia; auto. replace a with i by lia. apply H. lia.
      * rewrite Rplus_0_l. rewrite (IH _ (unskip r i)). ring. -- unfold unskip. destruct (Nat.ltb_spec i r); lia. -- intros c Hc. unfold skip, unskip. destruct (Nat.ltb_spec i r). ++ destruct (Nat.ltb_spec i r), (Nat.ltb_spec (S i) r); try lia. apply H. lia. ++ destruct (Nat.ltb_spec (pred i) r), (Nat.ltb_spec (S (pred i)) r); try lia. replace (S (pred i)) with i by lia. apply H. lia.
Qed.
Lemma setrow_id K i a c : setrow K i (K i) a c = K a c.
Proof. unfold setrow. destruct (Nat.eqb_spec a i) as [->|]; reflexivity. Qed.
Lemma det_row_plus n K i r1 r2 : (i < n)%nat -> det n (setrow K i (fun c => r1 c + r2 c)) = det n (setrow K i r1) + det n (setrow K i r2).
Proof. intros Hi. rewrite <- (Rmult_1_l (det n (setrow K i r1))), <- det_row by auto. apply det_ext. intros a c _ _. unfold setrow. destruct (a =? i)%nat; ring. Qed.
(** from vanishing on two equal rows i, j to antisymmetry *)
Lemma det_anti n K i j : (i < n)%nat -> (j < n)%nat -> i <> j -> (forall K', (forall c, (c < n)%nat -> K' i c = K' j c) -> det n K' = 0) -> det n (fun a c => K (tr i j a) c) = - det n K.
Proof.
  intros Hi Hj N Z. set (B := fun r s => setrow (setrow K i r) j s).
  assert (Zr : forall r, det n (B r r) = 0). { intros r. apply Z. intros c _. unfold B, setrow. rewrite !Nat.eqb_refl. destruct (Nat.eqb_spec i j); [lia|]. reflexivity. }
  assert (P1 : forall r1 r2 s, det n (B (fun c => r1 c + r2 c) s) = det n (B r1 s) + det n (B r2 s)).
  { intros r1 r2 s. assert (Q : forall r, det n (B r s) = det n (setrow (setrow K j s) i r)). { intros r. apply det_ext. intros a c _ _. unfold B, setrow. destruct (Nat.eqb_spec a j), (Nat.eqb_spec a i); auto; lia. } rewrite !Q. now apply det_row_plus. }
  assert (P2 : forall r s1 s2, det n (B r (fun c => s1 c + s2 c)) = det n (B r s1) + det n (B r s2)). { intros. unfold B. now apply det_row_plus. }
  assert (E := Zr (fun c => K i c + K j c)). rewrite P1, !P2, !Zr in E.
  replace (det n K) with (det n (B (K i) (K j))). 2:{ apply det_ext. intros a c _ _. unfold B, setrow. destruct (Nat.eqb_spec a j) as [->|]; auto. destruct (Nat.eqb_spec a i) as [->|]; auto. }
  replace (det n (fun a c => K (tr i j a) c)) with (det n (B (K j) (K i))). 2:{ apply det_ext. intros a c _ _. unfold B, setrow, tr. destruct (Nat.eqb_spec a j) as [->|]. - destruct (Nat.eqb_spec j i); [lia|reflexivity]. - destruct (Nat.eqb_spec a i) as [->|]; auto. }
  lra.
Qed.
Lemma det_equal n K i d : (i + S d < n)%nat -> (forall c, (c < n)%nat -> K i c = K (i + S d)%nat c) -> det n K = 0.
Proof.
  revert K. induction d as [|d IH]; intros K Hd H.
  - apply (det_adjacent n K i); [lia|]. intros c Hc. rewrite H by auto. f_equal. lia.
  - assert (A : det n (fun a c => K (tr (i + S d) (S (i + S d)) a) c) = - det n K). { apply det_anti; try lia. intros K' H'. apply (det_adjacent n K' (i + S d)); auto; lia. }
    rewrite IH in A; [lra|lia|]. intros c Hc. unfold tr. destruct (Nat.eqb_spec i (i + S d)); [lia|]. destruct (Nat.eqb_spec i (S (i + S d))); [lia|]. rewrite Nat.eqb_refl. rewrite H by auto. f_equal. lia.
Qed.
Lemma det_equal_rows n K i j : (i < n)%nat -> (j < n)%nat -> i <> j -> (forall c, (c < n)%nat -> K i c = K j c) -> det n K = 0.
Proof.
  intros Hi Hj N H. destruct (Nat.lt_trichotomy i j) as [L|[L|L]]; [|lia|].
  - apply (det_equal n K i (j - i - 1)); [lia|]. intros c Hc. rewrite H by auto. f_equal. lia.
  - apply (det_equal n K j (i - j - 1)); [lia|]. intros c Hc. rewrite <- H by auto. f_equal. lia.
Qed.
Lemma det_swap n K i j : (i < n)%nat -> (j < n)%nat -> i <> j -> det n (fun a c => K (tr i j a) c) = - det n K.
Proof. intros Hi Hj N. apply det_anti; auto. intros K' H. now apply (det_equal_rows n K' i j). Qed.
Fixpoint prodd (n : nat) (f : nat -> R) : R := match n with O => 1 | S m => prodd m f * f m end.
Lemma prodd_l n f : prodd (S n) f = f O * prodd n (fun i => f (S i)).
Proof. induction n as [|n IH]; [cbn; ring|]. change (prodd (S (S n)) f) with (prodd (S n) f * f (S n)). rewrite IH. cbn [prodd]. ring. Qed.
Lemma det_upper n K : (forall i c, (c < i < n)%nat -> K i c = 0) -> det n K = prodd n (fun i => K i i).
Proof.
  revert K. induction n as [|n IH]; intros K H; [reflexivity|]. rewrite prodd_l. cbn [det]. rewrite (Sig_single _ O) by (try lia; intros i Hi N; rewrite H by lia; ring).
  cbn [pow]. rewrite (IH (fun a c => K (skip 0 a) (S c))). - unfold skip. cbn. ring. - intros i c Hc. unfold skip. cbn. apply H. lia.
Qed.
Lemma det_row_sum n K i m (w : nat -> R) (r : nat -> nat -> R) r0 : (i < n)%nat -> det n (setrow K i (fun c => Sig m (fun k => w k * r k c) + r0 c)) = Sig m (fun k => w k * det n (setrow K i (r k))) + det n (setrow K i r0).
Proof.
  intros Hi. induction m as [|m IH].
  - rewrite (det_ext n _ (setrow K i r0)). + cbn. ring. + intros a c _ _. unfold setrow. destruct (a =? i)%nat; auto. cbn. ring.
  - rewrite Sig_S. rewrite (det_ext n _ (setrow K i (fun c => w m * r m c + (Sig m (fun k => w k * r k c) + r0 c)))). + rewrite det_row, IH by auto. ring. + intros a c _ _. unfold setrow. destruct (a =? i)%nat; auto. rewrite Sig_S. ring.
Qed.
(** multiplying from the left by a unit lower triangle *)
Lemma det_unit_lower n (L U : nat -> nat -> R) : det n (fun i c => Sig i (fun k => L i k * U k c) + U i c) = det n U.
Proof.
  set (F := fun i c => Sig i (fun k => L i k * U k c) + U i c).
  assert (H : forall t, (t <= n)%nat -> det n (fun a c => if (a <? t)%nat then U a c else F a c) = det n F).
  { induction t as [|t IH]; intros Ht. - apply det_ext. intros. reflexivity.
    - rewrite <- IH by lia. set (N := fun a c => if (a <? S t)%nat then U a c else F a c). symmetry.
      rewrite (det_ext n _ (setrow N t (fun c => Sig t (fun k => L t k * U k c) + U t c))).
      2:{ intros a c _ _. unfold setrow, N. destruct (Nat.eqb_spec a t) as [->|]. - rewrite Nat.ltb_irrefl. reflexivity. - destruct (Nat.ltb_spec a t), (Nat.ltb_spec a (S t)); try lia; reflexivity. }
      rewrite det_row_sum by lia. rewrite Sig_zero.
      + rewrite Rplus_0_l. apply det_ext. intros a c _ _. unfold setrow, N. destruct (Nat.eqb_spec a t) as [->|]; auto. destruct (Nat.ltb_spec t (S t)); [reflexivity|lia].
      + intros k Hk. rewrite (det_equal_rows n _ k t); try lia; [ring|]. intros c Hc. unfold setrow, N. rewrite Nat.eqb_refl. destruct (Nat.eqb_spec k t); [lia|]. destruct (Nat.ltb_spec k (S t)); [reflexivity|lia]. }
  rewrite <- (H n) by lia. apply det_ext. intros a c Ha _. destruct (Nat.ltb_spec a n); [reflexivity|lia].
Qed.
Lemma det_sig n K p j : (j <= n)%nat -> (forall c, (c < j)%nat -> (c <= p c < n)%nat) -> det n (fun a c => K (sig p j a) c) = IZR (sgn p j) * det n K.
Proof.
  induction j as [|j IH]; intros Hj H; cbn [sig sgn]; [rewrite Rmult_1_l; reflexivity|]. destruct (Nat.eqb_spec j (p j)) as [E|N].
  - rewrite <- E. rewrite <- IH by (try lia; intros; apply H; lia). apply det_ext. intros a c _ _. rewrite tr_same. reflexivity.
  - specialize (H j ltac:(lia)) as Hj'. rewrite (det_swap n (fun a c => K (sig p j a) c) j (p j)) by lia. rewrite IH by (try lia; intros; apply H; lia). rewrite opp_IZR. ring.
Qed.
Lemma sgn_sq p j : IZR (sgn p j) * IZR (sgn p j) = 1.
Proof. induction j as [|j IH]; cbn [sgn]; [cbn; ring|]. destruct (j =? p j)%nat; auto. rewrite opp_IZR. lra. Qed.
Lemma det_factored n K0 K p : (forall c, (c < n)%nat -> (c <= p c < n)%nat) -> factored n K0 K (sig p n) n -> det n K0 = IZR (sgn p n) * prodd n (fun i => K i i).
Proof.
  intros Rp [_ FL _]. set (U := fun i c => if (i <=? c)%nat then K i c else 0).
  assert (E1 : prodd n (fun i => K i i) = det n U). { rewrite det_upper. - clear. induction n as [|m IH]; cbn [prodd]; auto. rewrite IH. f_equal. unfold U. now rewrite Nat.leb_refl. - intros i c Hc. unfold U. destruct (Nat.leb_spec i c); [lia|reflexivity]. }
  assert (E2 : det n (fun a c => K0 (sig p n a) c) = det n U).
  { rewrite <- (det_unit_lower n K U). apply det_ext. intros i c Hi Hc. rewrite <- (FL i c) by auto.
    assert (E : Sig (S c) (fun k => Lf K i k * K k c) = Sig n (fun k => Lf K i k * U k c)).
    { assert (EE : Sig n (fun k => Lf K i k * U k c) = Sig (S c + (n - S c)) (fun k => Lf K i k * U k c)) by (f_equal; lia). rewrite EE, Sig_add, (Sig_zero (n - S c)). - rewrite Rplus_0_r. apply Sig_ext. intros k Hk. unfold U. destruct (Nat.leb_spec k c); [reflexivity|lia]. - intros k Hk. unfold U. destruct (Nat.leb_spec (S c + k) c); [lia|ring]. }
    rewrite E. assert (EE : Sig n (fun k => Lf K i k * U k c) = Sig (i + S (n - S i)) (fun k => Lf K i k * U k c)) by (f_equal; lia). rewrite EE, Sig_add, Sig_S_l, (Sig_zero (n - S i)).
    - rewrite Nat.add_0_r, Rplus_0_r. f_equal. + apply Sig_ext. intros k Hk. unfold Lf. destruct (Nat.ltb_spec k i); [reflexivity|lia]. + unfold Lf. rewrite Nat.ltb_irrefl, Nat.eqb_refl. ring.
    - intros k Hk. unfold Lf. destruct (Nat.ltb_spec (i + S k) i); [lia|]. destruct (Nat.eqb_spec (i + S k) i); [lia|]. ring. }
  rewrite det_sig in E2 by auto. rewrite E1, <- E2, <- Rmult_assoc, sgn_sq. ring.
Qed.
