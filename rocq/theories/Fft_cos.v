(** Proofs about the fast transforms: the cosine transforms. *)
From Verif Require Import Rutil Loops Sparse_model Rsum Trig Fft_model.
From Verif Require Export Fft_real.
Local Open Scope R_scope.

(** ** loops that treat the elements k and c-k together *)
Definition ppart (lo c K : nat) (aux y : nat -> R) (x : nat) : R :=
  if (((lo <=? x) && (x <? K)) || ((x <=? c) && ((lo <=? c - x) && (c - x <? K))))%nat then aux x else y x.
Lemma ppart_at lo c k aux y : (2 * k < c)%nat -> ppart lo c k aux y k = y k /\ ppart lo c k aux y (c - k) = y (c - k)%nat.
Proof.
  intros H. unfold ppart. split.
  - destruct (Nat.ltb_spec k k); [lia|]. destruct (Nat.ltb_spec (c - k) k); [lia|]. now rewrite !andb_false_r.
  - destruct (Nat.ltb_spec (c - k) k); [lia|]. destruct (Nat.ltb_spec (c - (c - k)) k); [lia|]. now rewrite !andb_false_r.
Qed.
Lemma ppart_step lo c k aux y x : (lo <= k)%nat -> (2 * k < c)%nat ->
  fset (fset (ppart lo c k aux y) k (aux k)) (c - k) (aux (c - k)%nat) x = ppart lo c (k + 1) aux y x.
Proof.
  intros H1 H2. unfold fset. destruct (Nat.eqb_spec x (c - k)) as [->|N1].
  - unfold ppart. destruct (Nat.leb_spec (c - k) c); [|lia]. destruct (Nat.leb_spec lo (c - (c - k))); [|lia]. destruct (Nat.ltb_spec (c - (c - k)) (k + 1)); [|lia]. now rewrite orb_true_r.
  - destruct (Nat.eqb_spec x k) as [->|N2].
    + unfold ppart. destruct (Nat.leb_spec lo k); [|lia]. destruct (Nat.ltb_spec k (k + 1)); [|lia]. reflexivity.
    + unfold ppart. destruct (Nat.leb_spec lo x), (Nat.ltb_spec x k), (Nat.ltb_spec x (k + 1)), (Nat.leb_spec x c), (Nat.leb_spec lo (c - x)), (Nat.ltb_spec (c - x) k), (Nat.ltb_spec (c - x) (k + 1)); cbn [andb orb]; auto; lia.
Qed.
Lemma ppart_none lo c aux y x : ppart lo c lo aux y x = y x.
Proof. unfold ppart. destruct (Nat.leb_spec lo x), (Nat.ltb_spec x lo), (Nat.leb_spec x c), (Nat.leb_spec lo (c - x)), (Nat.ltb_spec (c - x) lo); cbn [andb orb]; auto; lia. Qed.
(** the elements of lo..c-lo have all been treated when K passes the middle, up to the middle one *)
Lemma ppart_all lo c K aux y x : (2 * K = c \/ 2 * K = c + 1)%nat -> ((2 * K = c)%nat -> aux K = y K) -> (lo <= K)%nat ->
  ppart lo c K aux y x = if ((lo <=? x) && (x + lo <=? c))%nat then aux x else y x.
Proof.
  intros H HK HL. unfold ppart. destruct (Nat.leb_spec lo x), (Nat.ltb_spec x K), (Nat.leb_spec x c), (Nat.leb_spec lo (c - x)), (Nat.ltb_spec (c - x) K), (Nat.leb_spec (x + lo) c); cbn [andb orb]; auto; try lia.
  assert (x = K) by lia. subst. symmetry. apply HK. lia.
Qed.

(** ** sums with a mirror symmetry *)
Lemma mirror n f g : (forall j, (j < n)%nat -> f j = g (n - 1 - j)%nat) -> Sig n f = Sig n g.
Proof. intros H. rewrite (Sig_rev n g). now apply Sig_ext. Qed.
Lemma mirror0 n f : (forall j, (j < n)%nat -> f (n - 1 - j)%nat = - f j) -> Sig n f = 0.
Proof. intros H. assert (Sig n f = - Sig n f); [|lra]. rewrite Sig_rev at 1. rewrite <- Sig_opp. apply Sig_ext. auto. Qed.

(** ** numrec_cosft1 *)
(** ends_split and wend are in Trig.v: half weight at both ends *)
Definition dct1 (N : nat) (y : nat -> R) (k : nat) : R := Sig (N + 1) (fun j => wend N j * (cos (INR k * (PI / INR N) * INR j) * y j)).
Definition aux1 (N : nat) (y : nat -> R) (j : nat) : R := if (j =? 0)%nat then 0.5 * (y 0%nat + y N) else 0.5 * (y j + y (N - j)%nat) - sin (INR j * (PI / INR N)) * (y j - y (N - j)%nat).
Lemma dct1_ends N y k : (1 <= N)%nat -> dct1 N y k = / 2 * (y 0%nat + (-1) ^ k * y N) + Sig (N - 1) (fun j => cos (INR k * (PI / INR N) * INR (j + 1)) * y (j + 1)%nat).
Proof.
  intros HN. assert (INR N <> 0) by (apply not_0_INR; lia). unfold dct1. rewrite (ends_split N (fun j => cos (INR k * (PI / INR N) * INR j) * y j)) by auto.
  rewrite Rmult_0_r, cos_0. replace (INR k * (PI / INR N) * INR N) with (INR k * PI) by (field; auto). rewrite cos_nPI. ring.
Qed.
Lemma sin_mirror N j : (1 <= N)%nat -> (j <= N)%nat -> sin (INR (N - j) * (PI / INR N)) = sin (INR j * (PI / INR N)).
Proof. intros H1 H2. assert (INR N <> 0) by (apply not_0_INR; lia). rewrite minus_INR by auto. replace ((INR N - INR j) * (PI / INR N)) with (PI - INR j * (PI / INR N)) by (field; auto). now rewrite sin_PI_x. Qed.
Lemma cos_mirror N j k : (1 <= N)%nat -> (j <= N)%nat -> cos (2 * PI * INR (N - j) * INR k / INR N) = cos (2 * PI * INR j * INR k / INR N).
Proof.
  intros H1 H2. assert (INR N <> 0) by (apply not_0_INR; lia). rewrite minus_INR by auto.
  replace (2 * PI * (INR N - INR j) * INR k / INR N) with (- (2 * PI * INR j * INR k / INR N) + 2 * INR k * PI) by (field; auto). now rewrite cos_period, cos_neg.
Qed.
Lemma sin_mirror2 N j k : (1 <= N)%nat -> (j <= N)%nat -> sin (2 * PI * INR (N - j) * INR k / INR N) = - sin (2 * PI * INR j * INR k / INR N).
Proof.
  intros H1 H2. assert (INR N <> 0) by (apply not_0_INR; lia). rewrite minus_INR by auto.
  replace (2 * PI * (INR N - INR j) * INR k / INR N) with (- (2 * PI * INR j * INR k / INR N) + 2 * INR k * PI) by (field; auto). now rewrite sin_period, sin_neg.
Qed.
Lemma rdft_fst N f k : fst (rdft N f k) = Sig N (fun j => f j * cos (2 * PI * INR j * INR k / INR N)).
Proof. unfold rdft, dft, CSig. cbn [fst]. apply Sig_ext. intros. cbn [Cmult RtoC cis fst snd]. rewrite Rmult_1_l. ring. Qed.
Lemma rdft_snd N f k : snd (rdft N f k) = Sig N (fun j => f j * sin (2 * PI * INR j * INR k / INR N)).
Proof. unfold rdft, dft, CSig. cbn [snd]. apply Sig_ext. intros. cbn [Cmult RtoC cis fst snd]. rewrite Rmult_1_l. ring. Qed.
Lemma Sig_first n f : (1 <= n)%nat -> Sig n f = f 0%nat + Sig (n - 1) (fun j => f (j + 1)%nat).
Proof. intros H. replace n with (S (n - 1)) at 1 by lia. rewrite Sig_S_l. f_equal. apply Sig_ext. intros. f_equal. lia. Qed.
Lemma cosft1_even N y k : (1 <= N)%nat -> fst (rdft N (aux1 N y) k) = dct1 N y (2 * k).
Proof.
  intros HN. assert (N0 : INR N <> 0) by (apply not_0_INR; lia). rewrite rdft_fst, dct1_ends, pow_m1_double by auto. rewrite Sig_first by auto.
  replace (2 * PI * INR 0 * INR k / INR N) with 0 by (simpl; field; auto). rewrite cos_0. unfold aux1 at 1. cbn [Nat.eqb].
  rewrite (Sig_ext (N - 1) _ (fun j => 0.5 * (y (j + 1)%nat * cos (2 * PI * INR (j + 1) * INR k / INR N)) + 0.5 * (y (N - (j + 1))%nat * cos (2 * PI * INR (j + 1) * INR k / INR N))
     + - (sin (INR (j + 1) * (PI / INR N)) * (y (j + 1)%nat - y (N - (j + 1))%nat) * cos (2 * PI * INR (j + 1) * INR k / INR N)))).
  2:{ intros j Hj. unfold aux1. destruct (Nat.eqb_spec (j + 1) 0); [lia|]. lra. }
  rewrite !Sig_plus, !Sig_scal.
  rewrite (mirror0 (N - 1) (fun j => - (sin (INR (j + 1) * (PI / INR N)) * (y (j + 1)%nat - y (N - (j + 1))%nat) * cos (2 * PI * INR (j + 1) * INR k / INR N)))).
  2:{ intros j Hj. replace (N - 1 - 1 - j + 1)%nat with (N - (j + 1))%nat by lia. rewrite sin_mirror, cos_mirror by lia. replace (N - (N - (j + 1)))%nat with (j + 1)%nat by lia. ring. }
  rewrite (mirror (N - 1) (fun j => y (N - (j + 1))%nat * cos (2 * PI * INR (j + 1) * INR k / INR N)) (fun j => y (j + 1)%nat * cos (2 * PI * INR (j + 1) * INR k / INR N))).
  2:{ intros j Hj. replace (N - 1 - 1 - j + 1)%nat with (N - (j + 1))%nat by lia. rewrite cos_mirror by lia. auto. }
  rewrite (Sig_ext (N - 1) (fun j => cos (INR (2 * k) * (PI / INR N) * INR (j + 1)) * y (j + 1)%nat) (fun j => y (j + 1)%nat * cos (2 * PI * INR (j + 1) * INR k / INR N))).
  2:{ intros j Hj. rewrite Rmult_comm. do 2 f_equal. rewrite mult_INR. simpl (INR 2). field. auto. }
  lra.
Qed.
Lemma cosft1_odd N y k : (1 <= N)%nat -> (1 <= k)%nat -> snd (rdft N (aux1 N y) k) = dct1 N y (2 * k + 1) - dct1 N y (2 * k - 1).
Proof.
  intros HN Hk. assert (N0 : INR N <> 0) by (apply not_0_INR; lia). rewrite rdft_snd, !dct1_ends by auto. rewrite Sig_first by auto.
  replace (2 * PI * INR 0 * INR k / INR N) with 0 by (simpl; field; auto). rewrite sin_0, Rmult_0_r, Rplus_0_l.
  replace (2 * k + 1)%nat with (S (2 * k)) by lia. replace ((-1) ^ S (2 * k)) with (-1) by (rewrite <- tech_pow_Rmult, pow_m1_double; ring).
  replace (2 * k - 1)%nat with (S (2 * (k - 1))) by lia. replace ((-1) ^ S (2 * (k - 1))) with (-1) by (rewrite <- tech_pow_Rmult, pow_m1_double; ring).
  match goal with |- _ = ?h + ?a - (?h + ?b) => replace (h + a - (h + b)) with (a - b) by ring end. rewrite <- Sig_minus.
  rewrite (Sig_ext (N - 1) _ (fun j => 0.5 * ((y (j + 1)%nat + y (N - (j + 1))%nat) * sin (2 * PI * INR (j + 1) * INR k / INR N))
     + (- (sin (INR (j + 1) * (PI / INR N)) * sin (2 * PI * INR (j + 1) * INR k / INR N) * y (j + 1)%nat) + sin (INR (j + 1) * (PI / INR N)) * sin (2 * PI * INR (j + 1) * INR k / INR N) * y (N - (j + 1))%nat))).
  2:{ intros j Hj. unfold aux1. destruct (Nat.eqb_spec (j + 1) 0); [lia|]. lra. }
  rewrite Sig_plus, Sig_scal.
  rewrite (mirror0 (N - 1) (fun j => (y (j + 1)%nat + y (N - (j + 1))%nat) * sin (2 * PI * INR (j + 1) * INR k / INR N))).
  2:{ intros j Hj. replace (N - 1 - 1 - j + 1)%nat with (N - (j + 1))%nat by lia. rewrite sin_mirror2 by lia. replace (N - (N - (j + 1)))%nat with (j + 1)%nat by lia. ring. }
  rewrite Rmult_0_r, Rplus_0_l, Sig_plus.
  rewrite (mirror (N - 1) (fun j => sin (INR (j + 1) * (PI / INR N)) * sin (2 * PI * INR (j + 1) * INR k / INR N) * y (N - (j + 1))%nat) (fun j => - (sin (INR (j + 1) * (PI / INR N)) * sin (2 * PI * INR (j + 1) * INR k / INR N) * y (j + 1)%nat))).
  2:{ intros j Hj. replace (N - 1 - 1 - j + 1)%nat with (N - (j + 1))%nat by lia. rewrite sin_mirror, sin_mirror2 by lia. ring. }
  rewrite <- Sig_plus. apply Sig_ext. intros j Hj.
  replace (INR (S (2 * k)) * (PI / INR N) * INR (j + 1)) with (2 * PI * INR (j + 1) * INR k / INR N + INR (j + 1) * (PI / INR N)) by (rewrite S_INR, mult_INR; simpl (INR 2); field; auto).
  replace (INR (S (2 * (k - 1))) * (PI / INR N) * INR (j + 1)) with (2 * PI * INR (j + 1) * INR k / INR N - INR (j + 1) * (PI / INR N)) by (rewrite S_INR, mult_INR, minus_INR by auto; simpl; field; auto).
  rewrite cos_plus, cos_minus. ring.
Qed.
Lemma cosft1_first M y : (1 <= M)%nat -> let N := (2 * M)%nat in
  dct1 N y 1 = 0.5 * (y 0%nat - y N) + Sig (M - 1) (fun j => cos (INR (j + 1) * (PI / INR N)) * (y (j + 1)%nat - y (N - (j + 1))%nat)).
Proof.
  intros HM N. assert (N0 : INR N <> 0) by (apply not_0_INR; lia). rewrite dct1_ends by (unfold N; lia). simpl ((-1) ^ 1). replace (N - 1)%nat with ((M - 1) + (1 + (M - 1)))%nat by (unfold N; lia).
  rewrite Sig_add, Sig_S_l. rewrite (Sig_ext (M - 1) (fun j => cos (INR (j + 1) * (PI / INR N)) * (y (j + 1)%nat - y (N - (j + 1))%nat))
    (fun j => cos (INR (j + 1) * (PI / INR N)) * y (j + 1)%nat + - (cos (INR (j + 1) * (PI / INR N)) * y (N - (j + 1))%nat))) by (intros; ring). rewrite Sig_plus.
  assert (Mid : cos (INR 1 * (PI / INR N) * INR (M - 1 + 0 + 1)) = 0).
  { replace (M - 1 + 0 + 1)%nat with M by lia. replace (INR 1 * (PI / INR N) * INR M) with (PI / 2); [apply cos_PI2|]. unfold N. rewrite mult_INR. simpl (INR 2). simpl (INR 1). field. apply not_0_INR. lia. }
  rewrite Mid. rewrite (mirror (M - 1) (fun i => cos (INR 1 * (PI / INR N) * INR (M - 1 + S i + 1)) * y (M - 1 + S i + 1)%nat) (fun j => - (cos (INR (j + 1) * (PI / INR N)) * y (N - (j + 1))%nat))).
  2:{ intros j Hj. replace (N - (M - 1 - 1 - j + 1))%nat with (M - 1 + S j + 1)%nat by (unfold N; lia). rewrite <- Ropp_mult_distr_l_reverse. f_equal.
      replace (M - 1 - 1 - j + 1)%nat with (N - (M - 1 + S j + 1))%nat by (unfold N; lia). rewrite minus_INR by (unfold N; lia).
      replace ((INR N - INR (M - 1 + S j + 1)) * (PI / INR N)) with (- (INR 1 * (PI / INR N) * INR (M - 1 + S j + 1)) + PI) by (simpl (INR 1); field; auto). rewrite neg_cos, cos_neg. ring. }
  rewrite (Sig_ext (M - 1) (fun j => cos (INR 1 * (PI / INR N) * INR (j + 1)) * y (j + 1)%nat) (fun j => cos (INR (j + 1) * (PI / INR N)) * y (j + 1)%nat)) by (intros; do 2 f_equal; simpl (INR 1); ring).
  lra.
Qed.
Lemma rdft_ext N f g k : (forall j, (j < N)%nat -> f j = g j) -> rdft N f k = rdft N g k.
Proof. intros H. unfold rdft, dft. apply CSig_ext. intros j Hj. now rewrite H. Qed.
Lemma cosft1_ok L p y : let N := (2 * 2 ^ p)%nat in (N + 1 <= L)%nat ->
  numrec_cosft1 (tabl L y) N = Ok (tabl L (fun k => if (k <=? N)%nat then dct1 N y k else y k)).
Proof.
  intros N HL. set (M := (2 ^ p)%nat) in *. assert (M0 : (0 < M)%nat) by apply pow2_pos. assert (N2 : (N / 2 = M)%nat) by (unfold N; apply half_even).
  assert (N0 : INR N <> 0) by (apply not_0_INR; unfold N; lia).
  unfold numrec_cosft1. rewrite wp_ok, N2. rewrite !rd1_tabl by lia. cbn [rbind]. rewrite wr1_tabl by lia. cbn [rbind]. change (1 - 1)%nat with 0%nat. rewrite Nat.add_sub.
  set (theta := PI / INR N). set (y1 := fset y 0 (0.5 * (y 0%nat + y N))).
  set (F := fun j : nat => (tabl L (ppart 1 N (j - 1) (aux1 N y) y1), (cis (INR (j - 2) * theta) : R * R), 0.5 * (y 0%nat - y N) + Sig (j - 2) (fun i => cos (INR (i + 1) * theta) * (y (i + 1)%nat - y (N - (i + 1))%nat)))).
  assert (F0 : (tabl L y1, (1, 0), 0.5 * (y 0%nat - y N)) = F 2%nat).
  { unfold F. change (2 - 1)%nat with 1%nat. change (2 - 2)%nat with 0%nat. f_equal; [f_equal|].
    - apply tabl_ext. intros. now rewrite ppart_none.
    - simpl INR. rewrite Rmult_0_l, cis_0. reflexivity.
    - simpl. ring. }
  rewrite F0. rewrite (for_nat_eq F); [|lia|].
  2:{ intros j Hj. unfold F at 1. cbv beta iota zeta. rewrite turn_gen. unfold cis at 1. cbv beta iota.
      destruct (ppart_at 1 N (j - 1) (aux1 N y) y1) as [P1 P2]; [unfold N; lia|].
      rewrite rd1_tabl by lia. cbn [rbind]. rewrite rd1_tabl by lia. cbn [rbind]. rewrite wr1_tabl by lia. cbn [rbind]. rewrite wr1_tabl by lia. cbn [rbind].
      replace (N + 2 - j - 1)%nat with (N - (j - 1))%nat by lia. rewrite P1, P2. assert (Ya : y1 (j - 1)%nat = y (j - 1)%nat) by (unfold y1, fset; destruct (Nat.eqb_spec (j - 1) 0); [lia|auto]).
      assert (Yb : y1 (N - (j - 1))%nat = y (N - (j - 1))%nat) by (unfold y1, fset; destruct (Nat.eqb_spec (N - (j - 1)) 0); [unfold N in *; lia|auto]). rewrite Ya, Yb.
      assert (TH : INR (j - 2) * theta + theta = INR (j - 1) * theta) by (rewrite !minus_INR by lia; simpl; ring). rewrite TH.
      unfold F. replace (j + 1 - 1)%nat with (j - 1 + 1)%nat by lia. replace (j + 1 - 2)%nat with (S (j - 2)) by lia. do 2 f_equal; [f_equal|].
      - apply tabl_ext. intros x Hx. rewrite <- ppart_step by (unfold N; lia). fold y1.
        replace (aux1 N y (j - 1)) with (0.5 * (y (j - 1)%nat + y (N - (j - 1))%nat) - sin (INR (j - 1) * theta) * (y (j - 1)%nat - y (N - (j - 1))%nat)).
        2:{ unfold aux1. destruct (Nat.eqb_spec (j - 1) 0); [lia|]. reflexivity. }
        replace (aux1 N y (N - (j - 1))) with (0.5 * (y (j - 1)%nat + y (N - (j - 1))%nat) + sin (INR (j - 1) * theta) * (y (j - 1)%nat - y (N - (j - 1))%nat)).
        2:{ unfold aux1. destruct (Nat.eqb_spec (N - (j - 1)) 0); [unfold N in *; lia|]. rewrite sin_mirror by (unfold N; lia). replace (N - (N - (j - 1)))%nat with (j - 1)%nat by (unfold N; lia). fold theta. ring. }
        reflexivity.
      - unfold cis. f_equal; f_equal; replace (j - 1)%nat with (S (j - 2)) by lia; auto.
      - rewrite Sig_S. replace (j - 2 + 1)%nat with (j - 1)%nat by lia. ring. }
  unfold F. rewrite Nat.add_sub. replace (M + 1 - 2)%nat with (M - 1)%nat by lia. cbn [rbind].
  set (y2 := fun x => if (x <? N)%nat then aux1 N y x else y x).
  rewrite (tabl_ext L _ y2).
  2:{ intros x Hx. rewrite ppart_all; [|left; auto| |lia].
      - unfold y2, y1, fset. destruct (Nat.leb_spec 1 x), (Nat.leb_spec (x + 1) N), (Nat.ltb_spec x N), (Nat.eqb_spec x 0); cbn [andb]; auto; try lia; try (unfold N in *; lia). subst. reflexivity.
      - intros _. unfold aux1, y1, fset. destruct (Nat.eqb_spec M 0); [lia|]. replace (N - M)%nat with M by (unfold N; lia). lra. }
  assert (ER : numrec_realft (tabl L y2) N true = Ok (tabl L (flat (packed N y2)))) by (apply realft_fwd; fold M; lia). rewrite ER. cbn [rbind].
  assert (S1 : 0.5 * (y 0%nat - y N) + Sig (M - 1) (fun i => cos (INR (i + 1) * theta) * (y (i + 1)%nat - y (N - (i + 1))%nat)) = dct1 N y 1) by (symmetry; apply cosft1_first; lia). rewrite S1.
  rewrite rd1_tabl by (unfold N in *; lia). cbn [rbind]. rewrite wr1_tabl by lia. cbn [rbind]. rewrite wr1_tabl by (unfold N in *; lia). cbn [rbind]. change (2 - 1)%nat with 1%nat. rewrite Nat.add_sub.
  assert (RX : forall k, rdft N y2 k = rdft N (aux1 N y) k). { intros k. apply rdft_ext. intros j Hj. unfold y2. destruct (Nat.ltb_spec j N); [auto|lia]. }
  set (y3 := flat (packed N y2)). assert (V0 : y3 0%nat = dct1 N y 0). { unfold y3. replace (flat (packed N y2) 0) with (fst (packed N y2 0)) by (symmetry; apply (flat_even _ 0)). unfold packed. cbn [Nat.eqb fst]. rewrite RX, cosft1_even by (unfold N; lia). reflexivity. }
  assert (V1 : y3 1%nat = dct1 N y N). { unfold y3. replace (flat (packed N y2) 1) with (snd (packed N y2 0)) by (symmetry; apply (flat_odd _ 0)). unfold packed. cbn [Nat.eqb snd]. rewrite N2, RX, cosft1_even by (unfold N; lia). reflexivity. }
  assert (Ve : forall i, (1 <= i < M)%nat -> y3 (2 * i)%nat = dct1 N y (2 * i)). { intros i Hi. unfold y3. rewrite flat_even. unfold packed. rewrite N2. destruct (Nat.eqb_spec i 0); [lia|]. destruct (Nat.ltb_spec i M); [|lia]. rewrite RX, cosft1_even by (unfold N; lia). reflexivity. }
  assert (Vo : forall i, (1 <= i < M)%nat -> y3 (2 * i + 1)%nat = dct1 N y (2 * i + 1) - dct1 N y (2 * i - 1)). { intros i Hi. unfold y3. rewrite flat_odd. unfold packed. rewrite N2. destruct (Nat.eqb_spec i 0); [lia|]. destruct (Nat.ltb_spec i M); [|lia]. rewrite RX, cosft1_odd by (unfold N; lia). reflexivity. }
  assert (Vx : forall x, (N < x)%nat -> y3 x = y x). { intros x Hx. unfold y3. destruct (nat_cases x) as [[i ->]|[i ->]]; [rewrite flat_even|rewrite flat_odd]; unfold packed; rewrite N2; destruct (Nat.eqb_spec i 0); try (unfold N in *; lia);
    destruct (Nat.ltb_spec i M); try (unfold N in *; lia); unfold unflat, y2; cbn [fst snd]; [destruct (Nat.ltb_spec (2 * i) N)|destruct (Nat.ltb_spec (2 * i + 1) N)]; auto; unfold N in *; lia. }
  set (y4 := fset (fset y3 N (y3 1%nat)) 1 (dct1 N y 1)).
  set (Q := fun k : nat => (tabl L (fun x => if (negb (Nat.even x) && (x <? 2 * k - 2))%nat then dct1 N y x else y4 x), dct1 N y (2 * k - 3))).
  assert (Q0 : (tabl L y4, dct1 N y 1) = Q 2%nat).
  { unfold Q. change (2 * 2 - 3)%nat with 1%nat. change (2 * 2 - 2)%nat with 2%nat. f_equal. apply tabl_ext. intros x Hx. destruct (Nat.ltb_spec x 2); [|now rewrite andb_false_r]. destruct x as [|[|x]]; [reflexivity|reflexivity|lia]. }
  rewrite Q0. rewrite (for_nat_eq Q); [|lia|].
  - cbn [rbind]. unfold Q. cbn [fst]. f_equal. apply tabl_ext. intros x Hx. destruct (nat_cases x) as [[i ->]|[i ->]]; [rewrite even_2k|rewrite even_2k1]; cbn [negb andb].
    + unfold y4, fset. destruct (Nat.eqb_spec (2 * i) 1); [lia|]. destruct (Nat.eqb_spec (2 * i) N) as [E|E].
      * rewrite E. destruct (Nat.leb_spec N N); [|lia]. apply V1.
      * destruct (Nat.leb_spec (2 * i) N); [|apply Vx; lia]. destruct i as [|i]; [apply V0|]. apply Ve. unfold N in *; lia.
    + destruct (Nat.ltb_spec (2 * i + 1) (2 * (M + 1) - 2)), (Nat.leb_spec (2 * i + 1) N); auto; try (unfold N in *; lia). unfold y4, fset. destruct (Nat.eqb_spec (2 * i + 1) 1); [unfold N in *; lia|].
      destruct (Nat.eqb_spec (2 * i + 1) N); [unfold N in *; lia|]. apply Vx. auto.
  - intros k Hk. unfold Q at 1. cbv beta iota zeta. rewrite rd1_tabl by (unfold N in *; lia). cbn [rbind]. rewrite wr1_tabl by (unfold N in *; lia). cbn [rbind].
    replace (2 * k - 1)%nat with (2 * (k - 1) + 1)%nat by lia. rewrite even_2k1. cbn [negb andb]. destruct (Nat.ltb_spec (2 * (k - 1) + 1) (2 * k - 2)); [lia|].
    assert (Y4 : y4 (2 * (k - 1) + 1)%nat = dct1 N y (2 * (k - 1) + 1) - dct1 N y (2 * (k - 1) - 1)).
    { unfold y4, fset. destruct (Nat.eqb_spec (2 * (k - 1) + 1) 1); [lia|]. destruct (Nat.eqb_spec (2 * (k - 1) + 1) N); [unfold N in *; lia|]. apply Vo. lia. }
    rewrite Y4. replace (2 * (k - 1) - 1)%nat with (2 * k - 3)%nat by lia. replace (dct1 N y (2 * k - 3) + (dct1 N y (2 * (k - 1) + 1) - dct1 N y (2 * k - 3))) with (dct1 N y (2 * (k - 1) + 1)) by ring.
    unfold Q. replace (2 * (k + 1) - 3)%nat with (2 * (k - 1) + 1)%nat by lia. do 2 f_equal. apply tabl_ext. intros x Hx. unfold fset. destruct (Nat.eqb_spec x (2 * (k - 1) + 1)) as [->|Nx].
    + rewrite even_2k1. cbn [negb andb]. destruct (Nat.ltb_spec (2 * (k - 1) + 1) (2 * (k + 1) - 2)); [auto|lia].
    + destruct (nat_cases x) as [[i ->]|[i ->]]; [rewrite even_2k|rewrite even_2k1]; cbn [negb andb]; auto. destruct (Nat.ltb_spec (2 * i + 1) (2 * k - 2)), (Nat.ltb_spec (2 * i + 1) (2 * (k + 1) - 2)); auto; lia.
Qed.
